(* What a JSON pointer into a schema addresses, stated without the code of reference_path.go. *)
From Coq Require Import ZArith List String Ascii Bool.
From Verif Require Import Base Json Schema Util.
Import ListNotations.
Open Scope string_scope.

(* one step down from a schema: a keyword holding one schema, a keyword and a name in its map, a keyword
   and an index in its list *)
Inductive step : Type :=
| Into (keyword : string)
| Named (keyword name : string)
| Nth (keyword : string) (index : nat).

Definition orFalse (d : option (nodeOrFalse schemaNode)) : option schemaNode :=
  match d with Some d => if nofFalse d then None else nofSchema d | None => None end.
Definition single (n : schemaNode) (keyword : string) : option schemaNode :=
  match keyword with
  | "additionalProperties" => orFalse (sAdditionalProperties n)
  | "items" => match sItems n with Some d => itNode d | None => None end
  | "contains" => sContains n
  | "additionalItems" => orFalse (sAdditionalItems n)
  | "unevaluatedItems" => orFalse (sUnevaluatedItems n)
  | "not" => sNot n
  | "if" => sIf n
  | "then" => sThen n
  | "else" => sElse n
  | _ => None
  end.
Definition named (n : schemaNode) (keyword : string) : option (list (string * schemaNode)) :=
  match keyword with
  | "properties" => sProperties n
  | "patternProperties" => sPatternProperties n
  | "definitions" => sDefinitions n
  | "$defs" => sDefs n
  | _ => None
  end.
Definition listed (n : schemaNode) (keyword : string) : option (list schemaNode) :=
  match keyword with
  | "prefixItems" => sPrefixItems n
  | "items" => match sItems n with Some d => itNodes d | None => None end
  | "allOf" => sAllOf n
  | "anyOf" => sAnyOf n
  | "oneOf" => sOneOf n
  | _ => None
  end.
Definition down (n : schemaNode) (s : step) : option schemaNode :=
  match s with
  | Into k => single n k
  | Named k x => match named n k with Some l => assoc x l | None => None end
  | Nth k i => match listed n k with Some l => nth_error l i | None => None end
  end.
(* the schema a list of steps addresses *)
Fixpoint addressed (n : schemaNode) (l : list step) : option schemaNode :=
  match l with
  | [] => Some n
  | s :: r => match down n s with Some c => addressed c r | None => None end
  end.

(* steps that can be written down: keywords of their kind, names that need no escaping *)
Definition plainName (x : string) : Prop := x <> "" /\ ~ In "/"%char (list_ascii_of_string x).
Definition wellFormed (s : step) : Prop :=
  match s with
  | Into k => In k ["additionalProperties"; "items"; "contains"; "additionalItems"; "unevaluatedItems"; "not"; "if"; "then"; "else"]
  | Named k x => In k ["properties"; "patternProperties"; "definitions"; "$defs"] /\ plainName x
  | Nth k _ => In k ["prefixItems"; "items"; "allOf"; "anyOf"; "oneOf"]
  end.
Definition isIndex (s : step) : bool := match s with Nth _ _ => true | _ => false end.
Definition isNamed (s : step) : bool := match s with Named _ _ => true | _ => false end.

(* the pointer text *)
Definition written (s : step) : string :=
  match s with Into k => k | Named k x => k ++ "/" ++ x | Nth k i => k ++ "/" ++ itoa (Z.of_nat i) end.
Fixpoint pointer (l : list step) : string :=
  match l with [] => "" | s :: r => "/" ++ written s ++ pointer r end.
