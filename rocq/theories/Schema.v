(* Schema nodes: the Go struct schemaNode (parse.go 92-171) and its helper structs (json.go 7-26,
   if.go 22-27, constraint.go 35-47).  Generated by tools/mkschema.py.
   Pointers become options, Go maps become association lists whose order stands for the map's
   iteration order. *)
From Coq Require Import ZArith List String Bool.
From Verif Require Import Base Float64 Json.
Import ListNotations.
Open Scope string_scope.
Open Scope Z_scope.

(* json.go 9-12: MultipleTypes nil is None; a JSON [] gives Some [] *)
Record multipleType : Type := mkMT { mtSingle : string; mtMultiple : option (list string) }.

(* json.go 15-19 *)
Record itemsData (A : Type) : Type := mkItems { itNode : option A; itNodes : option (list A); itDisallow : bool }.
Arguments mkItems {A}. Arguments itNode {A}. Arguments itNodes {A}. Arguments itDisallow {A}.

(* json.go 22-25 *)
Record nodeOrFalse (A : Type) : Type := mkNOF { nofSchema : option A; nofFalse : bool }.
Arguments mkNOF {A}. Arguments nofSchema {A}. Arguments nofFalse {A}.

(* if.go 22-27 *)
Record ifStmt (A : Type) : Type := mkIf { ifPath : string; ifIf : option A; ifThen : option A; ifElse : option A }.
Arguments mkIf {A}. Arguments ifPath {A}. Arguments ifIf {A}. Arguments ifThen {A}. Arguments ifElse {A}.

(* constraint.go 35-47: compiled regexes and format functions are represented by the pattern and the
   format name they were looked up with; values are kept in encoded form as in the Go map's keys. *)
Record ccoll : Type := mkCC { ccRegex : list string; ccFormat : list string; ccValues : list (option enc); ccProps : list string }.

(* parse.go 92-171 *)
Inductive schemaNode : Type := mkNode {
  sType : option multipleType;
  sLength : option Z;
  sProperties : option (list (string * schemaNode));
  sAdditionalProperties : option (nodeOrFalse schemaNode);
  sPatternProperties : option (list (string * schemaNode));
  sMinProperties : option Z;
  sMaxProperties : option Z;
  sRequired : option (list string);
  sPattern : option string;
  sFormat : option string;
  sMinLength : option Z;
  sMaxLength : option Z;
  sMinimum : option f64;
  sMaximum : option f64;
  sExclusiveMinimum : option f64;
  sExclusiveMaximum : option f64;
  sMultipleOf : option f64;
  sItems : option (itemsData schemaNode);
  sMinItems : option Z;
  sMaxItems : option Z;
  sContains : option schemaNode;
  sMinContains : option Z;
  sMaxContains : option Z;
  sPrefixItems : option (list schemaNode);
  sAdditionalItems : option (nodeOrFalse schemaNode);
  sUnevaluatedItems : option (nodeOrFalse schemaNode);
  sUniqueItems : option bool;
  sEnum : option (list json);
  sConst : option json;
  sNot : option schemaNode;
  sAllOf : option (list schemaNode);
  sAnyOf : option (list schemaNode);
  sOneOf : option (list schemaNode);
  sRef : option string;
  sId : option string;
  sDefs : option (list (string * schemaNode));
  sDefinitions : option (list (string * schemaNode));
  sIf : option schemaNode;
  sThen : option schemaNode;
  sElse : option schemaNode;
  sDependentRequired : list (string * list string);
  sDependentSchemas : list (string * schemaNode);
  sMergedIf : list (ifStmt schemaNode);
  sMergedNot : list schemaNode;
  sConstraints : option ccoll
}.

(* parse.go: newEmptySchemaNode, the zero value of the struct *)
Definition emptyNode : schemaNode :=
  mkNode None None None None None None None None None None None None None None None None None None None None None None None None None None None None None None None None None None None None None None None None [] [] [] [] None.

(* n.F = v, one setter per field *)
Definition set_sType (v : option multipleType) (n : schemaNode) : schemaNode :=
  mkNode v (sLength n) (sProperties n) (sAdditionalProperties n) (sPatternProperties n) (sMinProperties n) (sMaxProperties n) (sRequired n) (sPattern n) (sFormat n) (sMinLength n) (sMaxLength n) (sMinimum n) (sMaximum n) (sExclusiveMinimum n) (sExclusiveMaximum n) (sMultipleOf n) (sItems n) (sMinItems n) (sMaxItems n) (sContains n) (sMinContains n) (sMaxContains n) (sPrefixItems n) (sAdditionalItems n) (sUnevaluatedItems n) (sUniqueItems n) (sEnum n) (sConst n) (sNot n) (sAllOf n) (sAnyOf n) (sOneOf n) (sRef n) (sId n) (sDefs n) (sDefinitions n) (sIf n) (sThen n) (sElse n) (sDependentRequired n) (sDependentSchemas n) (sMergedIf n) (sMergedNot n) (sConstraints n).

Definition set_sLength (v : option Z) (n : schemaNode) : schemaNode :=
  mkNode (sType n) v (sProperties n) (sAdditionalProperties n) (sPatternProperties n) (sMinProperties n) (sMaxProperties n) (sRequired n) (sPattern n) (sFormat n) (sMinLength n) (sMaxLength n) (sMinimum n) (sMaximum n) (sExclusiveMinimum n) (sExclusiveMaximum n) (sMultipleOf n) (sItems n) (sMinItems n) (sMaxItems n) (sContains n) (sMinContains n) (sMaxContains n) (sPrefixItems n) (sAdditionalItems n) (sUnevaluatedItems n) (sUniqueItems n) (sEnum n) (sConst n) (sNot n) (sAllOf n) (sAnyOf n) (sOneOf n) (sRef n) (sId n) (sDefs n) (sDefinitions n) (sIf n) (sThen n) (sElse n) (sDependentRequired n) (sDependentSchemas n) (sMergedIf n) (sMergedNot n) (sConstraints n).

Definition set_sProperties (v : option (list (string * schemaNode))) (n : schemaNode) : schemaNode :=
  mkNode (sType n) (sLength n) v (sAdditionalProperties n) (sPatternProperties n) (sMinProperties n) (sMaxProperties n) (sRequired n) (sPattern n) (sFormat n) (sMinLength n) (sMaxLength n) (sMinimum n) (sMaximum n) (sExclusiveMinimum n) (sExclusiveMaximum n) (sMultipleOf n) (sItems n) (sMinItems n) (sMaxItems n) (sContains n) (sMinContains n) (sMaxContains n) (sPrefixItems n) (sAdditionalItems n) (sUnevaluatedItems n) (sUniqueItems n) (sEnum n) (sConst n) (sNot n) (sAllOf n) (sAnyOf n) (sOneOf n) (sRef n) (sId n) (sDefs n) (sDefinitions n) (sIf n) (sThen n) (sElse n) (sDependentRequired n) (sDependentSchemas n) (sMergedIf n) (sMergedNot n) (sConstraints n).

Definition set_sAdditionalProperties (v : option (nodeOrFalse schemaNode)) (n : schemaNode) : schemaNode :=
  mkNode (sType n) (sLength n) (sProperties n) v (sPatternProperties n) (sMinProperties n) (sMaxProperties n) (sRequired n) (sPattern n) (sFormat n) (sMinLength n) (sMaxLength n) (sMinimum n) (sMaximum n) (sExclusiveMinimum n) (sExclusiveMaximum n) (sMultipleOf n) (sItems n) (sMinItems n) (sMaxItems n) (sContains n) (sMinContains n) (sMaxContains n) (sPrefixItems n) (sAdditionalItems n) (sUnevaluatedItems n) (sUniqueItems n) (sEnum n) (sConst n) (sNot n) (sAllOf n) (sAnyOf n) (sOneOf n) (sRef n) (sId n) (sDefs n) (sDefinitions n) (sIf n) (sThen n) (sElse n) (sDependentRequired n) (sDependentSchemas n) (sMergedIf n) (sMergedNot n) (sConstraints n).

Definition set_sPatternProperties (v : option (list (string * schemaNode))) (n : schemaNode) : schemaNode :=
  mkNode (sType n) (sLength n) (sProperties n) (sAdditionalProperties n) v (sMinProperties n) (sMaxProperties n) (sRequired n) (sPattern n) (sFormat n) (sMinLength n) (sMaxLength n) (sMinimum n) (sMaximum n) (sExclusiveMinimum n) (sExclusiveMaximum n) (sMultipleOf n) (sItems n) (sMinItems n) (sMaxItems n) (sContains n) (sMinContains n) (sMaxContains n) (sPrefixItems n) (sAdditionalItems n) (sUnevaluatedItems n) (sUniqueItems n) (sEnum n) (sConst n) (sNot n) (sAllOf n) (sAnyOf n) (sOneOf n) (sRef n) (sId n) (sDefs n) (sDefinitions n) (sIf n) (sThen n) (sElse n) (sDependentRequired n) (sDependentSchemas n) (sMergedIf n) (sMergedNot n) (sConstraints n).

Definition set_sMinProperties (v : option Z) (n : schemaNode) : schemaNode :=
  mkNode (sType n) (sLength n) (sProperties n) (sAdditionalProperties n) (sPatternProperties n) v (sMaxProperties n) (sRequired n) (sPattern n) (sFormat n) (sMinLength n) (sMaxLength n) (sMinimum n) (sMaximum n) (sExclusiveMinimum n) (sExclusiveMaximum n) (sMultipleOf n) (sItems n) (sMinItems n) (sMaxItems n) (sContains n) (sMinContains n) (sMaxContains n) (sPrefixItems n) (sAdditionalItems n) (sUnevaluatedItems n) (sUniqueItems n) (sEnum n) (sConst n) (sNot n) (sAllOf n) (sAnyOf n) (sOneOf n) (sRef n) (sId n) (sDefs n) (sDefinitions n) (sIf n) (sThen n) (sElse n) (sDependentRequired n) (sDependentSchemas n) (sMergedIf n) (sMergedNot n) (sConstraints n).

Definition set_sMaxProperties (v : option Z) (n : schemaNode) : schemaNode :=
  mkNode (sType n) (sLength n) (sProperties n) (sAdditionalProperties n) (sPatternProperties n) (sMinProperties n) v (sRequired n) (sPattern n) (sFormat n) (sMinLength n) (sMaxLength n) (sMinimum n) (sMaximum n) (sExclusiveMinimum n) (sExclusiveMaximum n) (sMultipleOf n) (sItems n) (sMinItems n) (sMaxItems n) (sContains n) (sMinContains n) (sMaxContains n) (sPrefixItems n) (sAdditionalItems n) (sUnevaluatedItems n) (sUniqueItems n) (sEnum n) (sConst n) (sNot n) (sAllOf n) (sAnyOf n) (sOneOf n) (sRef n) (sId n) (sDefs n) (sDefinitions n) (sIf n) (sThen n) (sElse n) (sDependentRequired n) (sDependentSchemas n) (sMergedIf n) (sMergedNot n) (sConstraints n).

Definition set_sRequired (v : option (list string)) (n : schemaNode) : schemaNode :=
  mkNode (sType n) (sLength n) (sProperties n) (sAdditionalProperties n) (sPatternProperties n) (sMinProperties n) (sMaxProperties n) v (sPattern n) (sFormat n) (sMinLength n) (sMaxLength n) (sMinimum n) (sMaximum n) (sExclusiveMinimum n) (sExclusiveMaximum n) (sMultipleOf n) (sItems n) (sMinItems n) (sMaxItems n) (sContains n) (sMinContains n) (sMaxContains n) (sPrefixItems n) (sAdditionalItems n) (sUnevaluatedItems n) (sUniqueItems n) (sEnum n) (sConst n) (sNot n) (sAllOf n) (sAnyOf n) (sOneOf n) (sRef n) (sId n) (sDefs n) (sDefinitions n) (sIf n) (sThen n) (sElse n) (sDependentRequired n) (sDependentSchemas n) (sMergedIf n) (sMergedNot n) (sConstraints n).

Definition set_sPattern (v : option string) (n : schemaNode) : schemaNode :=
  mkNode (sType n) (sLength n) (sProperties n) (sAdditionalProperties n) (sPatternProperties n) (sMinProperties n) (sMaxProperties n) (sRequired n) v (sFormat n) (sMinLength n) (sMaxLength n) (sMinimum n) (sMaximum n) (sExclusiveMinimum n) (sExclusiveMaximum n) (sMultipleOf n) (sItems n) (sMinItems n) (sMaxItems n) (sContains n) (sMinContains n) (sMaxContains n) (sPrefixItems n) (sAdditionalItems n) (sUnevaluatedItems n) (sUniqueItems n) (sEnum n) (sConst n) (sNot n) (sAllOf n) (sAnyOf n) (sOneOf n) (sRef n) (sId n) (sDefs n) (sDefinitions n) (sIf n) (sThen n) (sElse n) (sDependentRequired n) (sDependentSchemas n) (sMergedIf n) (sMergedNot n) (sConstraints n).

Definition set_sFormat (v : option string) (n : schemaNode) : schemaNode :=
  mkNode (sType n) (sLength n) (sProperties n) (sAdditionalProperties n) (sPatternProperties n) (sMinProperties n) (sMaxProperties n) (sRequired n) (sPattern n) v (sMinLength n) (sMaxLength n) (sMinimum n) (sMaximum n) (sExclusiveMinimum n) (sExclusiveMaximum n) (sMultipleOf n) (sItems n) (sMinItems n) (sMaxItems n) (sContains n) (sMinContains n) (sMaxContains n) (sPrefixItems n) (sAdditionalItems n) (sUnevaluatedItems n) (sUniqueItems n) (sEnum n) (sConst n) (sNot n) (sAllOf n) (sAnyOf n) (sOneOf n) (sRef n) (sId n) (sDefs n) (sDefinitions n) (sIf n) (sThen n) (sElse n) (sDependentRequired n) (sDependentSchemas n) (sMergedIf n) (sMergedNot n) (sConstraints n).

Definition set_sMinLength (v : option Z) (n : schemaNode) : schemaNode :=
  mkNode (sType n) (sLength n) (sProperties n) (sAdditionalProperties n) (sPatternProperties n) (sMinProperties n) (sMaxProperties n) (sRequired n) (sPattern n) (sFormat n) v (sMaxLength n) (sMinimum n) (sMaximum n) (sExclusiveMinimum n) (sExclusiveMaximum n) (sMultipleOf n) (sItems n) (sMinItems n) (sMaxItems n) (sContains n) (sMinContains n) (sMaxContains n) (sPrefixItems n) (sAdditionalItems n) (sUnevaluatedItems n) (sUniqueItems n) (sEnum n) (sConst n) (sNot n) (sAllOf n) (sAnyOf n) (sOneOf n) (sRef n) (sId n) (sDefs n) (sDefinitions n) (sIf n) (sThen n) (sElse n) (sDependentRequired n) (sDependentSchemas n) (sMergedIf n) (sMergedNot n) (sConstraints n).

Definition set_sMaxLength (v : option Z) (n : schemaNode) : schemaNode :=
  mkNode (sType n) (sLength n) (sProperties n) (sAdditionalProperties n) (sPatternProperties n) (sMinProperties n) (sMaxProperties n) (sRequired n) (sPattern n) (sFormat n) (sMinLength n) v (sMinimum n) (sMaximum n) (sExclusiveMinimum n) (sExclusiveMaximum n) (sMultipleOf n) (sItems n) (sMinItems n) (sMaxItems n) (sContains n) (sMinContains n) (sMaxContains n) (sPrefixItems n) (sAdditionalItems n) (sUnevaluatedItems n) (sUniqueItems n) (sEnum n) (sConst n) (sNot n) (sAllOf n) (sAnyOf n) (sOneOf n) (sRef n) (sId n) (sDefs n) (sDefinitions n) (sIf n) (sThen n) (sElse n) (sDependentRequired n) (sDependentSchemas n) (sMergedIf n) (sMergedNot n) (sConstraints n).

Definition set_sMinimum (v : option f64) (n : schemaNode) : schemaNode :=
  mkNode (sType n) (sLength n) (sProperties n) (sAdditionalProperties n) (sPatternProperties n) (sMinProperties n) (sMaxProperties n) (sRequired n) (sPattern n) (sFormat n) (sMinLength n) (sMaxLength n) v (sMaximum n) (sExclusiveMinimum n) (sExclusiveMaximum n) (sMultipleOf n) (sItems n) (sMinItems n) (sMaxItems n) (sContains n) (sMinContains n) (sMaxContains n) (sPrefixItems n) (sAdditionalItems n) (sUnevaluatedItems n) (sUniqueItems n) (sEnum n) (sConst n) (sNot n) (sAllOf n) (sAnyOf n) (sOneOf n) (sRef n) (sId n) (sDefs n) (sDefinitions n) (sIf n) (sThen n) (sElse n) (sDependentRequired n) (sDependentSchemas n) (sMergedIf n) (sMergedNot n) (sConstraints n).

Definition set_sMaximum (v : option f64) (n : schemaNode) : schemaNode :=
  mkNode (sType n) (sLength n) (sProperties n) (sAdditionalProperties n) (sPatternProperties n) (sMinProperties n) (sMaxProperties n) (sRequired n) (sPattern n) (sFormat n) (sMinLength n) (sMaxLength n) (sMinimum n) v (sExclusiveMinimum n) (sExclusiveMaximum n) (sMultipleOf n) (sItems n) (sMinItems n) (sMaxItems n) (sContains n) (sMinContains n) (sMaxContains n) (sPrefixItems n) (sAdditionalItems n) (sUnevaluatedItems n) (sUniqueItems n) (sEnum n) (sConst n) (sNot n) (sAllOf n) (sAnyOf n) (sOneOf n) (sRef n) (sId n) (sDefs n) (sDefinitions n) (sIf n) (sThen n) (sElse n) (sDependentRequired n) (sDependentSchemas n) (sMergedIf n) (sMergedNot n) (sConstraints n).

Definition set_sExclusiveMinimum (v : option f64) (n : schemaNode) : schemaNode :=
  mkNode (sType n) (sLength n) (sProperties n) (sAdditionalProperties n) (sPatternProperties n) (sMinProperties n) (sMaxProperties n) (sRequired n) (sPattern n) (sFormat n) (sMinLength n) (sMaxLength n) (sMinimum n) (sMaximum n) v (sExclusiveMaximum n) (sMultipleOf n) (sItems n) (sMinItems n) (sMaxItems n) (sContains n) (sMinContains n) (sMaxContains n) (sPrefixItems n) (sAdditionalItems n) (sUnevaluatedItems n) (sUniqueItems n) (sEnum n) (sConst n) (sNot n) (sAllOf n) (sAnyOf n) (sOneOf n) (sRef n) (sId n) (sDefs n) (sDefinitions n) (sIf n) (sThen n) (sElse n) (sDependentRequired n) (sDependentSchemas n) (sMergedIf n) (sMergedNot n) (sConstraints n).

Definition set_sExclusiveMaximum (v : option f64) (n : schemaNode) : schemaNode :=
  mkNode (sType n) (sLength n) (sProperties n) (sAdditionalProperties n) (sPatternProperties n) (sMinProperties n) (sMaxProperties n) (sRequired n) (sPattern n) (sFormat n) (sMinLength n) (sMaxLength n) (sMinimum n) (sMaximum n) (sExclusiveMinimum n) v (sMultipleOf n) (sItems n) (sMinItems n) (sMaxItems n) (sContains n) (sMinContains n) (sMaxContains n) (sPrefixItems n) (sAdditionalItems n) (sUnevaluatedItems n) (sUniqueItems n) (sEnum n) (sConst n) (sNot n) (sAllOf n) (sAnyOf n) (sOneOf n) (sRef n) (sId n) (sDefs n) (sDefinitions n) (sIf n) (sThen n) (sElse n) (sDependentRequired n) (sDependentSchemas n) (sMergedIf n) (sMergedNot n) (sConstraints n).

Definition set_sMultipleOf (v : option f64) (n : schemaNode) : schemaNode :=
  mkNode (sType n) (sLength n) (sProperties n) (sAdditionalProperties n) (sPatternProperties n) (sMinProperties n) (sMaxProperties n) (sRequired n) (sPattern n) (sFormat n) (sMinLength n) (sMaxLength n) (sMinimum n) (sMaximum n) (sExclusiveMinimum n) (sExclusiveMaximum n) v (sItems n) (sMinItems n) (sMaxItems n) (sContains n) (sMinContains n) (sMaxContains n) (sPrefixItems n) (sAdditionalItems n) (sUnevaluatedItems n) (sUniqueItems n) (sEnum n) (sConst n) (sNot n) (sAllOf n) (sAnyOf n) (sOneOf n) (sRef n) (sId n) (sDefs n) (sDefinitions n) (sIf n) (sThen n) (sElse n) (sDependentRequired n) (sDependentSchemas n) (sMergedIf n) (sMergedNot n) (sConstraints n).

Definition set_sItems (v : option (itemsData schemaNode)) (n : schemaNode) : schemaNode :=
  mkNode (sType n) (sLength n) (sProperties n) (sAdditionalProperties n) (sPatternProperties n) (sMinProperties n) (sMaxProperties n) (sRequired n) (sPattern n) (sFormat n) (sMinLength n) (sMaxLength n) (sMinimum n) (sMaximum n) (sExclusiveMinimum n) (sExclusiveMaximum n) (sMultipleOf n) v (sMinItems n) (sMaxItems n) (sContains n) (sMinContains n) (sMaxContains n) (sPrefixItems n) (sAdditionalItems n) (sUnevaluatedItems n) (sUniqueItems n) (sEnum n) (sConst n) (sNot n) (sAllOf n) (sAnyOf n) (sOneOf n) (sRef n) (sId n) (sDefs n) (sDefinitions n) (sIf n) (sThen n) (sElse n) (sDependentRequired n) (sDependentSchemas n) (sMergedIf n) (sMergedNot n) (sConstraints n).

Definition set_sMinItems (v : option Z) (n : schemaNode) : schemaNode :=
  mkNode (sType n) (sLength n) (sProperties n) (sAdditionalProperties n) (sPatternProperties n) (sMinProperties n) (sMaxProperties n) (sRequired n) (sPattern n) (sFormat n) (sMinLength n) (sMaxLength n) (sMinimum n) (sMaximum n) (sExclusiveMinimum n) (sExclusiveMaximum n) (sMultipleOf n) (sItems n) v (sMaxItems n) (sContains n) (sMinContains n) (sMaxContains n) (sPrefixItems n) (sAdditionalItems n) (sUnevaluatedItems n) (sUniqueItems n) (sEnum n) (sConst n) (sNot n) (sAllOf n) (sAnyOf n) (sOneOf n) (sRef n) (sId n) (sDefs n) (sDefinitions n) (sIf n) (sThen n) (sElse n) (sDependentRequired n) (sDependentSchemas n) (sMergedIf n) (sMergedNot n) (sConstraints n).

Definition set_sMaxItems (v : option Z) (n : schemaNode) : schemaNode :=
  mkNode (sType n) (sLength n) (sProperties n) (sAdditionalProperties n) (sPatternProperties n) (sMinProperties n) (sMaxProperties n) (sRequired n) (sPattern n) (sFormat n) (sMinLength n) (sMaxLength n) (sMinimum n) (sMaximum n) (sExclusiveMinimum n) (sExclusiveMaximum n) (sMultipleOf n) (sItems n) (sMinItems n) v (sContains n) (sMinContains n) (sMaxContains n) (sPrefixItems n) (sAdditionalItems n) (sUnevaluatedItems n) (sUniqueItems n) (sEnum n) (sConst n) (sNot n) (sAllOf n) (sAnyOf n) (sOneOf n) (sRef n) (sId n) (sDefs n) (sDefinitions n) (sIf n) (sThen n) (sElse n) (sDependentRequired n) (sDependentSchemas n) (sMergedIf n) (sMergedNot n) (sConstraints n).

Definition set_sContains (v : option schemaNode) (n : schemaNode) : schemaNode :=
  mkNode (sType n) (sLength n) (sProperties n) (sAdditionalProperties n) (sPatternProperties n) (sMinProperties n) (sMaxProperties n) (sRequired n) (sPattern n) (sFormat n) (sMinLength n) (sMaxLength n) (sMinimum n) (sMaximum n) (sExclusiveMinimum n) (sExclusiveMaximum n) (sMultipleOf n) (sItems n) (sMinItems n) (sMaxItems n) v (sMinContains n) (sMaxContains n) (sPrefixItems n) (sAdditionalItems n) (sUnevaluatedItems n) (sUniqueItems n) (sEnum n) (sConst n) (sNot n) (sAllOf n) (sAnyOf n) (sOneOf n) (sRef n) (sId n) (sDefs n) (sDefinitions n) (sIf n) (sThen n) (sElse n) (sDependentRequired n) (sDependentSchemas n) (sMergedIf n) (sMergedNot n) (sConstraints n).

Definition set_sMinContains (v : option Z) (n : schemaNode) : schemaNode :=
  mkNode (sType n) (sLength n) (sProperties n) (sAdditionalProperties n) (sPatternProperties n) (sMinProperties n) (sMaxProperties n) (sRequired n) (sPattern n) (sFormat n) (sMinLength n) (sMaxLength n) (sMinimum n) (sMaximum n) (sExclusiveMinimum n) (sExclusiveMaximum n) (sMultipleOf n) (sItems n) (sMinItems n) (sMaxItems n) (sContains n) v (sMaxContains n) (sPrefixItems n) (sAdditionalItems n) (sUnevaluatedItems n) (sUniqueItems n) (sEnum n) (sConst n) (sNot n) (sAllOf n) (sAnyOf n) (sOneOf n) (sRef n) (sId n) (sDefs n) (sDefinitions n) (sIf n) (sThen n) (sElse n) (sDependentRequired n) (sDependentSchemas n) (sMergedIf n) (sMergedNot n) (sConstraints n).

Definition set_sMaxContains (v : option Z) (n : schemaNode) : schemaNode :=
  mkNode (sType n) (sLength n) (sProperties n) (sAdditionalProperties n) (sPatternProperties n) (sMinProperties n) (sMaxProperties n) (sRequired n) (sPattern n) (sFormat n) (sMinLength n) (sMaxLength n) (sMinimum n) (sMaximum n) (sExclusiveMinimum n) (sExclusiveMaximum n) (sMultipleOf n) (sItems n) (sMinItems n) (sMaxItems n) (sContains n) (sMinContains n) v (sPrefixItems n) (sAdditionalItems n) (sUnevaluatedItems n) (sUniqueItems n) (sEnum n) (sConst n) (sNot n) (sAllOf n) (sAnyOf n) (sOneOf n) (sRef n) (sId n) (sDefs n) (sDefinitions n) (sIf n) (sThen n) (sElse n) (sDependentRequired n) (sDependentSchemas n) (sMergedIf n) (sMergedNot n) (sConstraints n).

Definition set_sPrefixItems (v : option (list schemaNode)) (n : schemaNode) : schemaNode :=
  mkNode (sType n) (sLength n) (sProperties n) (sAdditionalProperties n) (sPatternProperties n) (sMinProperties n) (sMaxProperties n) (sRequired n) (sPattern n) (sFormat n) (sMinLength n) (sMaxLength n) (sMinimum n) (sMaximum n) (sExclusiveMinimum n) (sExclusiveMaximum n) (sMultipleOf n) (sItems n) (sMinItems n) (sMaxItems n) (sContains n) (sMinContains n) (sMaxContains n) v (sAdditionalItems n) (sUnevaluatedItems n) (sUniqueItems n) (sEnum n) (sConst n) (sNot n) (sAllOf n) (sAnyOf n) (sOneOf n) (sRef n) (sId n) (sDefs n) (sDefinitions n) (sIf n) (sThen n) (sElse n) (sDependentRequired n) (sDependentSchemas n) (sMergedIf n) (sMergedNot n) (sConstraints n).

Definition set_sAdditionalItems (v : option (nodeOrFalse schemaNode)) (n : schemaNode) : schemaNode :=
  mkNode (sType n) (sLength n) (sProperties n) (sAdditionalProperties n) (sPatternProperties n) (sMinProperties n) (sMaxProperties n) (sRequired n) (sPattern n) (sFormat n) (sMinLength n) (sMaxLength n) (sMinimum n) (sMaximum n) (sExclusiveMinimum n) (sExclusiveMaximum n) (sMultipleOf n) (sItems n) (sMinItems n) (sMaxItems n) (sContains n) (sMinContains n) (sMaxContains n) (sPrefixItems n) v (sUnevaluatedItems n) (sUniqueItems n) (sEnum n) (sConst n) (sNot n) (sAllOf n) (sAnyOf n) (sOneOf n) (sRef n) (sId n) (sDefs n) (sDefinitions n) (sIf n) (sThen n) (sElse n) (sDependentRequired n) (sDependentSchemas n) (sMergedIf n) (sMergedNot n) (sConstraints n).

Definition set_sUnevaluatedItems (v : option (nodeOrFalse schemaNode)) (n : schemaNode) : schemaNode :=
  mkNode (sType n) (sLength n) (sProperties n) (sAdditionalProperties n) (sPatternProperties n) (sMinProperties n) (sMaxProperties n) (sRequired n) (sPattern n) (sFormat n) (sMinLength n) (sMaxLength n) (sMinimum n) (sMaximum n) (sExclusiveMinimum n) (sExclusiveMaximum n) (sMultipleOf n) (sItems n) (sMinItems n) (sMaxItems n) (sContains n) (sMinContains n) (sMaxContains n) (sPrefixItems n) (sAdditionalItems n) v (sUniqueItems n) (sEnum n) (sConst n) (sNot n) (sAllOf n) (sAnyOf n) (sOneOf n) (sRef n) (sId n) (sDefs n) (sDefinitions n) (sIf n) (sThen n) (sElse n) (sDependentRequired n) (sDependentSchemas n) (sMergedIf n) (sMergedNot n) (sConstraints n).

Definition set_sUniqueItems (v : option bool) (n : schemaNode) : schemaNode :=
  mkNode (sType n) (sLength n) (sProperties n) (sAdditionalProperties n) (sPatternProperties n) (sMinProperties n) (sMaxProperties n) (sRequired n) (sPattern n) (sFormat n) (sMinLength n) (sMaxLength n) (sMinimum n) (sMaximum n) (sExclusiveMinimum n) (sExclusiveMaximum n) (sMultipleOf n) (sItems n) (sMinItems n) (sMaxItems n) (sContains n) (sMinContains n) (sMaxContains n) (sPrefixItems n) (sAdditionalItems n) (sUnevaluatedItems n) v (sEnum n) (sConst n) (sNot n) (sAllOf n) (sAnyOf n) (sOneOf n) (sRef n) (sId n) (sDefs n) (sDefinitions n) (sIf n) (sThen n) (sElse n) (sDependentRequired n) (sDependentSchemas n) (sMergedIf n) (sMergedNot n) (sConstraints n).

Definition set_sEnum (v : option (list json)) (n : schemaNode) : schemaNode :=
  mkNode (sType n) (sLength n) (sProperties n) (sAdditionalProperties n) (sPatternProperties n) (sMinProperties n) (sMaxProperties n) (sRequired n) (sPattern n) (sFormat n) (sMinLength n) (sMaxLength n) (sMinimum n) (sMaximum n) (sExclusiveMinimum n) (sExclusiveMaximum n) (sMultipleOf n) (sItems n) (sMinItems n) (sMaxItems n) (sContains n) (sMinContains n) (sMaxContains n) (sPrefixItems n) (sAdditionalItems n) (sUnevaluatedItems n) (sUniqueItems n) v (sConst n) (sNot n) (sAllOf n) (sAnyOf n) (sOneOf n) (sRef n) (sId n) (sDefs n) (sDefinitions n) (sIf n) (sThen n) (sElse n) (sDependentRequired n) (sDependentSchemas n) (sMergedIf n) (sMergedNot n) (sConstraints n).

Definition set_sConst (v : option json) (n : schemaNode) : schemaNode :=
  mkNode (sType n) (sLength n) (sProperties n) (sAdditionalProperties n) (sPatternProperties n) (sMinProperties n) (sMaxProperties n) (sRequired n) (sPattern n) (sFormat n) (sMinLength n) (sMaxLength n) (sMinimum n) (sMaximum n) (sExclusiveMinimum n) (sExclusiveMaximum n) (sMultipleOf n) (sItems n) (sMinItems n) (sMaxItems n) (sContains n) (sMinContains n) (sMaxContains n) (sPrefixItems n) (sAdditionalItems n) (sUnevaluatedItems n) (sUniqueItems n) (sEnum n) v (sNot n) (sAllOf n) (sAnyOf n) (sOneOf n) (sRef n) (sId n) (sDefs n) (sDefinitions n) (sIf n) (sThen n) (sElse n) (sDependentRequired n) (sDependentSchemas n) (sMergedIf n) (sMergedNot n) (sConstraints n).

Definition set_sNot (v : option schemaNode) (n : schemaNode) : schemaNode :=
  mkNode (sType n) (sLength n) (sProperties n) (sAdditionalProperties n) (sPatternProperties n) (sMinProperties n) (sMaxProperties n) (sRequired n) (sPattern n) (sFormat n) (sMinLength n) (sMaxLength n) (sMinimum n) (sMaximum n) (sExclusiveMinimum n) (sExclusiveMaximum n) (sMultipleOf n) (sItems n) (sMinItems n) (sMaxItems n) (sContains n) (sMinContains n) (sMaxContains n) (sPrefixItems n) (sAdditionalItems n) (sUnevaluatedItems n) (sUniqueItems n) (sEnum n) (sConst n) v (sAllOf n) (sAnyOf n) (sOneOf n) (sRef n) (sId n) (sDefs n) (sDefinitions n) (sIf n) (sThen n) (sElse n) (sDependentRequired n) (sDependentSchemas n) (sMergedIf n) (sMergedNot n) (sConstraints n).

Definition set_sAllOf (v : option (list schemaNode)) (n : schemaNode) : schemaNode :=
  mkNode (sType n) (sLength n) (sProperties n) (sAdditionalProperties n) (sPatternProperties n) (sMinProperties n) (sMaxProperties n) (sRequired n) (sPattern n) (sFormat n) (sMinLength n) (sMaxLength n) (sMinimum n) (sMaximum n) (sExclusiveMinimum n) (sExclusiveMaximum n) (sMultipleOf n) (sItems n) (sMinItems n) (sMaxItems n) (sContains n) (sMinContains n) (sMaxContains n) (sPrefixItems n) (sAdditionalItems n) (sUnevaluatedItems n) (sUniqueItems n) (sEnum n) (sConst n) (sNot n) v (sAnyOf n) (sOneOf n) (sRef n) (sId n) (sDefs n) (sDefinitions n) (sIf n) (sThen n) (sElse n) (sDependentRequired n) (sDependentSchemas n) (sMergedIf n) (sMergedNot n) (sConstraints n).

Definition set_sAnyOf (v : option (list schemaNode)) (n : schemaNode) : schemaNode :=
  mkNode (sType n) (sLength n) (sProperties n) (sAdditionalProperties n) (sPatternProperties n) (sMinProperties n) (sMaxProperties n) (sRequired n) (sPattern n) (sFormat n) (sMinLength n) (sMaxLength n) (sMinimum n) (sMaximum n) (sExclusiveMinimum n) (sExclusiveMaximum n) (sMultipleOf n) (sItems n) (sMinItems n) (sMaxItems n) (sContains n) (sMinContains n) (sMaxContains n) (sPrefixItems n) (sAdditionalItems n) (sUnevaluatedItems n) (sUniqueItems n) (sEnum n) (sConst n) (sNot n) (sAllOf n) v (sOneOf n) (sRef n) (sId n) (sDefs n) (sDefinitions n) (sIf n) (sThen n) (sElse n) (sDependentRequired n) (sDependentSchemas n) (sMergedIf n) (sMergedNot n) (sConstraints n).

Definition set_sOneOf (v : option (list schemaNode)) (n : schemaNode) : schemaNode :=
  mkNode (sType n) (sLength n) (sProperties n) (sAdditionalProperties n) (sPatternProperties n) (sMinProperties n) (sMaxProperties n) (sRequired n) (sPattern n) (sFormat n) (sMinLength n) (sMaxLength n) (sMinimum n) (sMaximum n) (sExclusiveMinimum n) (sExclusiveMaximum n) (sMultipleOf n) (sItems n) (sMinItems n) (sMaxItems n) (sContains n) (sMinContains n) (sMaxContains n) (sPrefixItems n) (sAdditionalItems n) (sUnevaluatedItems n) (sUniqueItems n) (sEnum n) (sConst n) (sNot n) (sAllOf n) (sAnyOf n) v (sRef n) (sId n) (sDefs n) (sDefinitions n) (sIf n) (sThen n) (sElse n) (sDependentRequired n) (sDependentSchemas n) (sMergedIf n) (sMergedNot n) (sConstraints n).

Definition set_sRef (v : option string) (n : schemaNode) : schemaNode :=
  mkNode (sType n) (sLength n) (sProperties n) (sAdditionalProperties n) (sPatternProperties n) (sMinProperties n) (sMaxProperties n) (sRequired n) (sPattern n) (sFormat n) (sMinLength n) (sMaxLength n) (sMinimum n) (sMaximum n) (sExclusiveMinimum n) (sExclusiveMaximum n) (sMultipleOf n) (sItems n) (sMinItems n) (sMaxItems n) (sContains n) (sMinContains n) (sMaxContains n) (sPrefixItems n) (sAdditionalItems n) (sUnevaluatedItems n) (sUniqueItems n) (sEnum n) (sConst n) (sNot n) (sAllOf n) (sAnyOf n) (sOneOf n) v (sId n) (sDefs n) (sDefinitions n) (sIf n) (sThen n) (sElse n) (sDependentRequired n) (sDependentSchemas n) (sMergedIf n) (sMergedNot n) (sConstraints n).

Definition set_sId (v : option string) (n : schemaNode) : schemaNode :=
  mkNode (sType n) (sLength n) (sProperties n) (sAdditionalProperties n) (sPatternProperties n) (sMinProperties n) (sMaxProperties n) (sRequired n) (sPattern n) (sFormat n) (sMinLength n) (sMaxLength n) (sMinimum n) (sMaximum n) (sExclusiveMinimum n) (sExclusiveMaximum n) (sMultipleOf n) (sItems n) (sMinItems n) (sMaxItems n) (sContains n) (sMinContains n) (sMaxContains n) (sPrefixItems n) (sAdditionalItems n) (sUnevaluatedItems n) (sUniqueItems n) (sEnum n) (sConst n) (sNot n) (sAllOf n) (sAnyOf n) (sOneOf n) (sRef n) v (sDefs n) (sDefinitions n) (sIf n) (sThen n) (sElse n) (sDependentRequired n) (sDependentSchemas n) (sMergedIf n) (sMergedNot n) (sConstraints n).

Definition set_sDefs (v : option (list (string * schemaNode))) (n : schemaNode) : schemaNode :=
  mkNode (sType n) (sLength n) (sProperties n) (sAdditionalProperties n) (sPatternProperties n) (sMinProperties n) (sMaxProperties n) (sRequired n) (sPattern n) (sFormat n) (sMinLength n) (sMaxLength n) (sMinimum n) (sMaximum n) (sExclusiveMinimum n) (sExclusiveMaximum n) (sMultipleOf n) (sItems n) (sMinItems n) (sMaxItems n) (sContains n) (sMinContains n) (sMaxContains n) (sPrefixItems n) (sAdditionalItems n) (sUnevaluatedItems n) (sUniqueItems n) (sEnum n) (sConst n) (sNot n) (sAllOf n) (sAnyOf n) (sOneOf n) (sRef n) (sId n) v (sDefinitions n) (sIf n) (sThen n) (sElse n) (sDependentRequired n) (sDependentSchemas n) (sMergedIf n) (sMergedNot n) (sConstraints n).

Definition set_sDefinitions (v : option (list (string * schemaNode))) (n : schemaNode) : schemaNode :=
  mkNode (sType n) (sLength n) (sProperties n) (sAdditionalProperties n) (sPatternProperties n) (sMinProperties n) (sMaxProperties n) (sRequired n) (sPattern n) (sFormat n) (sMinLength n) (sMaxLength n) (sMinimum n) (sMaximum n) (sExclusiveMinimum n) (sExclusiveMaximum n) (sMultipleOf n) (sItems n) (sMinItems n) (sMaxItems n) (sContains n) (sMinContains n) (sMaxContains n) (sPrefixItems n) (sAdditionalItems n) (sUnevaluatedItems n) (sUniqueItems n) (sEnum n) (sConst n) (sNot n) (sAllOf n) (sAnyOf n) (sOneOf n) (sRef n) (sId n) (sDefs n) v (sIf n) (sThen n) (sElse n) (sDependentRequired n) (sDependentSchemas n) (sMergedIf n) (sMergedNot n) (sConstraints n).

Definition set_sIf (v : option schemaNode) (n : schemaNode) : schemaNode :=
  mkNode (sType n) (sLength n) (sProperties n) (sAdditionalProperties n) (sPatternProperties n) (sMinProperties n) (sMaxProperties n) (sRequired n) (sPattern n) (sFormat n) (sMinLength n) (sMaxLength n) (sMinimum n) (sMaximum n) (sExclusiveMinimum n) (sExclusiveMaximum n) (sMultipleOf n) (sItems n) (sMinItems n) (sMaxItems n) (sContains n) (sMinContains n) (sMaxContains n) (sPrefixItems n) (sAdditionalItems n) (sUnevaluatedItems n) (sUniqueItems n) (sEnum n) (sConst n) (sNot n) (sAllOf n) (sAnyOf n) (sOneOf n) (sRef n) (sId n) (sDefs n) (sDefinitions n) v (sThen n) (sElse n) (sDependentRequired n) (sDependentSchemas n) (sMergedIf n) (sMergedNot n) (sConstraints n).

Definition set_sThen (v : option schemaNode) (n : schemaNode) : schemaNode :=
  mkNode (sType n) (sLength n) (sProperties n) (sAdditionalProperties n) (sPatternProperties n) (sMinProperties n) (sMaxProperties n) (sRequired n) (sPattern n) (sFormat n) (sMinLength n) (sMaxLength n) (sMinimum n) (sMaximum n) (sExclusiveMinimum n) (sExclusiveMaximum n) (sMultipleOf n) (sItems n) (sMinItems n) (sMaxItems n) (sContains n) (sMinContains n) (sMaxContains n) (sPrefixItems n) (sAdditionalItems n) (sUnevaluatedItems n) (sUniqueItems n) (sEnum n) (sConst n) (sNot n) (sAllOf n) (sAnyOf n) (sOneOf n) (sRef n) (sId n) (sDefs n) (sDefinitions n) (sIf n) v (sElse n) (sDependentRequired n) (sDependentSchemas n) (sMergedIf n) (sMergedNot n) (sConstraints n).

Definition set_sElse (v : option schemaNode) (n : schemaNode) : schemaNode :=
  mkNode (sType n) (sLength n) (sProperties n) (sAdditionalProperties n) (sPatternProperties n) (sMinProperties n) (sMaxProperties n) (sRequired n) (sPattern n) (sFormat n) (sMinLength n) (sMaxLength n) (sMinimum n) (sMaximum n) (sExclusiveMinimum n) (sExclusiveMaximum n) (sMultipleOf n) (sItems n) (sMinItems n) (sMaxItems n) (sContains n) (sMinContains n) (sMaxContains n) (sPrefixItems n) (sAdditionalItems n) (sUnevaluatedItems n) (sUniqueItems n) (sEnum n) (sConst n) (sNot n) (sAllOf n) (sAnyOf n) (sOneOf n) (sRef n) (sId n) (sDefs n) (sDefinitions n) (sIf n) (sThen n) v (sDependentRequired n) (sDependentSchemas n) (sMergedIf n) (sMergedNot n) (sConstraints n).

Definition set_sDependentRequired (v : list (string * list string)) (n : schemaNode) : schemaNode :=
  mkNode (sType n) (sLength n) (sProperties n) (sAdditionalProperties n) (sPatternProperties n) (sMinProperties n) (sMaxProperties n) (sRequired n) (sPattern n) (sFormat n) (sMinLength n) (sMaxLength n) (sMinimum n) (sMaximum n) (sExclusiveMinimum n) (sExclusiveMaximum n) (sMultipleOf n) (sItems n) (sMinItems n) (sMaxItems n) (sContains n) (sMinContains n) (sMaxContains n) (sPrefixItems n) (sAdditionalItems n) (sUnevaluatedItems n) (sUniqueItems n) (sEnum n) (sConst n) (sNot n) (sAllOf n) (sAnyOf n) (sOneOf n) (sRef n) (sId n) (sDefs n) (sDefinitions n) (sIf n) (sThen n) (sElse n) v (sDependentSchemas n) (sMergedIf n) (sMergedNot n) (sConstraints n).

Definition set_sDependentSchemas (v : list (string * schemaNode)) (n : schemaNode) : schemaNode :=
  mkNode (sType n) (sLength n) (sProperties n) (sAdditionalProperties n) (sPatternProperties n) (sMinProperties n) (sMaxProperties n) (sRequired n) (sPattern n) (sFormat n) (sMinLength n) (sMaxLength n) (sMinimum n) (sMaximum n) (sExclusiveMinimum n) (sExclusiveMaximum n) (sMultipleOf n) (sItems n) (sMinItems n) (sMaxItems n) (sContains n) (sMinContains n) (sMaxContains n) (sPrefixItems n) (sAdditionalItems n) (sUnevaluatedItems n) (sUniqueItems n) (sEnum n) (sConst n) (sNot n) (sAllOf n) (sAnyOf n) (sOneOf n) (sRef n) (sId n) (sDefs n) (sDefinitions n) (sIf n) (sThen n) (sElse n) (sDependentRequired n) v (sMergedIf n) (sMergedNot n) (sConstraints n).

Definition set_sMergedIf (v : list (ifStmt schemaNode)) (n : schemaNode) : schemaNode :=
  mkNode (sType n) (sLength n) (sProperties n) (sAdditionalProperties n) (sPatternProperties n) (sMinProperties n) (sMaxProperties n) (sRequired n) (sPattern n) (sFormat n) (sMinLength n) (sMaxLength n) (sMinimum n) (sMaximum n) (sExclusiveMinimum n) (sExclusiveMaximum n) (sMultipleOf n) (sItems n) (sMinItems n) (sMaxItems n) (sContains n) (sMinContains n) (sMaxContains n) (sPrefixItems n) (sAdditionalItems n) (sUnevaluatedItems n) (sUniqueItems n) (sEnum n) (sConst n) (sNot n) (sAllOf n) (sAnyOf n) (sOneOf n) (sRef n) (sId n) (sDefs n) (sDefinitions n) (sIf n) (sThen n) (sElse n) (sDependentRequired n) (sDependentSchemas n) v (sMergedNot n) (sConstraints n).

Definition set_sMergedNot (v : list schemaNode) (n : schemaNode) : schemaNode :=
  mkNode (sType n) (sLength n) (sProperties n) (sAdditionalProperties n) (sPatternProperties n) (sMinProperties n) (sMaxProperties n) (sRequired n) (sPattern n) (sFormat n) (sMinLength n) (sMaxLength n) (sMinimum n) (sMaximum n) (sExclusiveMinimum n) (sExclusiveMaximum n) (sMultipleOf n) (sItems n) (sMinItems n) (sMaxItems n) (sContains n) (sMinContains n) (sMaxContains n) (sPrefixItems n) (sAdditionalItems n) (sUnevaluatedItems n) (sUniqueItems n) (sEnum n) (sConst n) (sNot n) (sAllOf n) (sAnyOf n) (sOneOf n) (sRef n) (sId n) (sDefs n) (sDefinitions n) (sIf n) (sThen n) (sElse n) (sDependentRequired n) (sDependentSchemas n) (sMergedIf n) v (sConstraints n).

Definition set_sConstraints (v : option ccoll) (n : schemaNode) : schemaNode :=
  mkNode (sType n) (sLength n) (sProperties n) (sAdditionalProperties n) (sPatternProperties n) (sMinProperties n) (sMaxProperties n) (sRequired n) (sPattern n) (sFormat n) (sMinLength n) (sMaxLength n) (sMinimum n) (sMaximum n) (sExclusiveMinimum n) (sExclusiveMaximum n) (sMultipleOf n) (sItems n) (sMinItems n) (sMaxItems n) (sContains n) (sMinContains n) (sMaxContains n) (sPrefixItems n) (sAdditionalItems n) (sUnevaluatedItems n) (sUniqueItems n) (sEnum n) (sConst n) (sNot n) (sAllOf n) (sAnyOf n) (sOneOf n) (sRef n) (sId n) (sDefs n) (sDefinitions n) (sIf n) (sThen n) (sElse n) (sDependentRequired n) (sDependentSchemas n) (sMergedIf n) (sMergedNot n) v.

