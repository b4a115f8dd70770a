#!/usr/bin/env python3
"""Prints rocq/theories/Schema.v: the schemaNode record (parse.go 92-171) and one setter per field."""
fields = [
 ("sType","option multipleType"),("sLength","option Z"),
 ("sProperties","option (list (string * schemaNode))"),
 ("sAdditionalProperties","option (nodeOrFalse schemaNode)"),
 ("sPatternProperties","option (list (string * schemaNode))"),
 ("sMinProperties","option Z"),("sMaxProperties","option Z"),("sRequired","option (list string)"),
 ("sPattern","option string"),("sFormat","option string"),("sMinLength","option Z"),("sMaxLength","option Z"),
 ("sMinimum","option f64"),("sMaximum","option f64"),("sExclusiveMinimum","option f64"),("sExclusiveMaximum","option f64"),
 ("sMultipleOf","option f64"),
 ("sItems","option (itemsData schemaNode)"),("sMinItems","option Z"),("sMaxItems","option Z"),
 ("sContains","option schemaNode"),("sMinContains","option Z"),("sMaxContains","option Z"),
 ("sPrefixItems","option (list schemaNode)"),
 ("sAdditionalItems","option (nodeOrFalse schemaNode)"),("sUnevaluatedItems","option (nodeOrFalse schemaNode)"),
 ("sUniqueItems","option bool"),
 ("sEnum","option (list json)"),("sConst","option json"),
 ("sNot","option schemaNode"),("sAllOf","option (list schemaNode)"),("sAnyOf","option (list schemaNode)"),("sOneOf","option (list schemaNode)"),
 ("sRef","option string"),("sId","option string"),
 ("sDefs","option (list (string * schemaNode))"),("sDefinitions","option (list (string * schemaNode))"),
 ("sIf","option schemaNode"),("sThen","option schemaNode"),("sElse","option schemaNode"),
 ("sDependentRequired","list (string * list string)"),("sDependentSchemas","list (string * schemaNode)"),
 ("sMergedIf","list (ifStmt schemaNode)"),("sMergedNot","list schemaNode"),("sConstraints","option ccoll"),
]
print("""(* Schema nodes: the Go struct schemaNode (parse.go 92-171) and its helper structs (json.go 7-26,
   if.go 22-27, constraint.go 35-47).  Generated by tools/mkschema.py.
   Pointers become options, Go maps become association lists whose order stands for the map's
   iteration order. *)
From Coq Require Import ZArith List String Bool.
From Verif Require Import Base Float64 Json.
Import ListNotations.
Open Scope string_scope.
Open Scope Z_scope.

(* json.go 9-12: MultipleTypes nil is None; a JSON [] gives Some [] *)
Record multipleType : Type := mkMT { mtSingle : string; mtMultiple : option (list string) }.

(* json.go 15-19 *)
Record itemsData (A : Type) : Type := mkItems { itNode : option A; itNodes : option (list A); itDisallow : bool }.
Arguments mkItems {A}. Arguments itNode {A}. Arguments itNodes {A}. Arguments itDisallow {A}.

(* json.go 22-25 *)
Record nodeOrFalse (A : Type) : Type := mkNOF { nofSchema : option A; nofFalse : bool }.
Arguments mkNOF {A}. Arguments nofSchema {A}. Arguments nofFalse {A}.

(* if.go 22-27 *)
Record ifStmt (A : Type) : Type := mkIf { ifPath : string; ifIf : option A; ifThen : option A; ifElse : option A }.
Arguments mkIf {A}. Arguments ifPath {A}. Arguments ifIf {A}. Arguments ifThen {A}. Arguments ifElse {A}.

(* constraint.go 35-47: compiled regexes and format functions are represented by the pattern and the
   format name they were looked up with; values are kept in encoded form as in the Go map's keys. *)
Record ccoll : Type := mkCC { ccRegex : list string; ccFormat : list string; ccValues : list (option enc); ccProps : list string }.

(* parse.go 92-171 *)
Inductive schemaNode : Type := mkNode {""")
print(";\n".join("  %s : %s"%f for f in fields))
print("}.\n")
print("(* parse.go: newEmptySchemaNode, the zero value of the struct *)")
def zero(t): return "None" if t.startswith("option") else "[]"
print("Definition emptyNode : schemaNode :=\n  mkNode %s.\n" % " ".join(zero(t) for _,t in fields))
print("(* n.F = v, one setter per field *)")
for i,(f,t) in enumerate(fields):
    args=" ".join(("v" if j==i else "(%s n)"%g) for j,(g,_) in enumerate(fields))
    print("Definition set_%s (v : %s) (n : schemaNode) : schemaNode :=\n  mkNode %s.\n"%(f,t,args))
