#!/usr/bin/env python3
"""Prints rocq/theories/Codec.v: decoding and encoding of schema nodes (json.go and the struct tags of
parse.go 95-176)."""
# (field, json key, kind)
F = [
 ("sType","type","type"),("sLength","length","int"),
 ("sProperties","properties","map"),("sAdditionalProperties","additionalProperties","nof"),
 ("sPatternProperties","patternProperties","map"),
 ("sMinProperties","minProperties","int"),("sMaxProperties","maxProperties","int"),("sRequired","required","strs"),
 ("sPattern","pattern","str"),("sFormat","format","str"),("sMinLength","minLength","int"),("sMaxLength","maxLength","int"),
 ("sMinimum","minimum","flt"),("sMaximum","maximum","flt"),("sExclusiveMinimum","exclusiveMinimum","flt"),
 ("sExclusiveMaximum","exclusiveMaximum","flt"),("sMultipleOf","multipleOf","flt"),
 ("sItems","items","items"),("sMinItems","minItems","int"),("sMaxItems","maxItems","int"),
 ("sContains","contains","node"),("sMinContains","minContains","int"),("sMaxContains","maxContains","int"),
 ("sPrefixItems","prefixItems","list"),("sAdditionalItems","additionalItems","nof"),
 ("sUnevaluatedItems","unevaluatedItems","nof"),("sUniqueItems","uniqueItems","bool"),
 ("sEnum","enum","anys"),("sConst","const","const"),
 ("sNot","not","node"),("sAllOf","allOf","list"),("sAnyOf","anyOf","list"),("sOneOf","oneOf","list"),
 ("sRef","$ref","str"),("sId","$id","str"),("sDefs","$defs","map"),("sDefinitions","definitions","map"),
 ("sIf","if","node"),("sThen","then","node"),("sElse","else","node"),
 ("sDependentRequired","dependentRequired","strsmap"),("sDependentSchemas","dependentSchemas","barmap"),
]
print(r'''(* Reading a schema node from JSON and writing it back: json.go and the struct tags of parse.go 95-176.
   Generated by tools/mkcodec.py.

   A JSON text is a json value in which JInt z is a number written as an integer literal and JFloat f a
   number written with a fraction or an exponent, standing for the float64 it reads as.
   Simplifications: an object has no repeated key, keys are matched exactly (encoding/json also accepts
   another capitalisation), and the order of an object's members stands for the iteration order of the
   Go map they end up in. *)
From Coq Require Import ZArith List String Bool.
From Flocq Require Import Core BinarySingleNaN.
From Verif Require Import Base Float64 Json Schema.
Import ListNotations.
Open Scope string_scope.
Open Scope Z_scope.

(* --- numbers --- *)

(* encoding/json, decoding into an int: strconv.ParseInt of the literal *)
Definition decInt (j : json) : option Z :=
  match j with
  | JInt z => if (- 2^63 <=? z) && (z <? 2^63) then Some z else None
  | _ => None
  end.

Definition finite (f : f64) : bool := match f with B754_zero _ => true | B754_finite _ _ _ _ => true | _ => false end.

(* encoding/json, decoding into a float64: strconv.ParseFloat, which fails on overflow *)
Definition decFloat (j : json) : option f64 :=
  match j with
  | JInt z => if finite (fofZ z) then Some (fofZ z) else None
  | JFloat f => if finite f then Some f else None
  | _ => None
  end.

(* encoding/json, writing a float64: format 'f' with the shortest digits when |f| < 1e21, so a whole
   number is written without a fraction (but -0 keeps its sign); otherwise the exponent form. *)
Definition bigFloat : f64 := fofZ (10 ^ 21).
Definition wholeSmall (f : f64) : bool :=
  match f with
  | B754_zero s => negb s
  | B754_finite _ _ _ _ => feqb (ftrunc f) f && fltb (fabs f) bigFloat
  | _ => false
  end.
Definition encFloat (f : f64) : json := if wholeSmall f then JInt (Btrunc f) else JFloat f.

(* encoding/json, decoding into interface{}: every number becomes a float64 *)
Fixpoint decAny (j : json) : option json :=
  match j with
  | JNull => Some JNull
  | JBool b => Some (JBool b)
  | JInt z => if finite (fofZ z) then Some (JFloat (fofZ z)) else None
  | JFloat f => if finite f then Some (JFloat f) else None
  | JStr s => Some (JStr s)
  | JArr l =>
      match (fix go (l : list json) : option (list json) :=
        match l with
        | [] => Some []
        | x :: r => match decAny x, go r with Some a, Some b => Some (a :: b) | _, _ => None end
        end) l with Some l' => Some (JArr l') | None => None end
  | JObj m =>
      match (fix go (m : list (string * json)) : option (list (string * json)) :=
        match m with
        | [] => Some []
        | (k, x) :: r => match decAny x, go r with Some a, Some b => Some ((k, a) :: b) | _, _ => None end
        end) m with Some m' => Some (JObj m') | None => None end
  end.

(* encoding/json, writing an interface{} *)
Fixpoint encAny (j : json) : json :=
  match j with
  | JFloat f => encFloat f
  | JArr l => JArr (map encAny l)
  | JObj m => JObj (map (fun kv => (fst kv, encAny (snd kv))) m)
  | _ => j
  end.

(* --- the leaves of a schema node --- *)

(* all elements decode, or the whole array fails *)
Definition allSome {A B : Type} (f : A -> option B) : list A -> option (list B) :=
  fix go l :=
  match l with
  | [] => Some []
  | x :: r => match f x, go r with Some a, Some b => Some (a :: b) | _, _ => None end
  end.
Definition allSomeKV {A B : Type} (f : A -> option B) : list (string * A) -> option (list (string * B)) :=
  fix go l :=
  match l with
  | [] => Some []
  | (k, x) :: r => match f x, go r with Some a, Some b => Some ((k, a) :: b) | _, _ => None end
  end.

Definition decStr (j : json) : option string := match j with JStr s => Some s | _ => None end.
(* a null inside a []string leaves the empty string *)
Definition decStrElem (j : json) : option string := match j with JStr s => Some s | JNull => Some "" | _ => None end.
Definition decStrs (j : json) : option (list string) := match j with JArr l => allSome decStrElem l | _ => None end.
Definition decBool (j : json) : option bool := match j with JBool b => Some b | _ => None end.
Definition decAnys (j : json) : option (list json) := match j with JArr l => allSome decAny l | _ => None end.
(* a null value of a map[string][]string leaves the nil slice *)
Definition decStrsElem (j : json) : option (list string) := match j with JNull => Some [] | _ => decStrs j end.
Definition decStrsMap (j : json) : option (list (string * list string)) :=
  match j with JObj m => allSomeKV decStrsElem m | _ => None end.

(* json.go 38-58 multipleType.UnmarshalJSON: null never reaches it, the pointer is set to nil *)
Definition decType (j : json) : option multipleType :=
  match j with
  | JStr s => Some (mkMT s None)
  | JArr l => match allSome decStrElem l with Some ts => Some (mkMT "" (Some ts)) | None => None end
  | _ => None
  end.

(* json.go 60-68 multipleType.MarshalJSON *)
Definition encType (t : multipleType) : json :=
  if negb (String.eqb (mtSingle t) "") then JStr (mtSingle t)
  else match mtMultiple t with
       | Some (x :: r) => JArr (map JStr (x :: r))
       | _ => JNull
       end.

(* --- nodes --- *)

(* what a member of the JSON object was read as *)
Inductive dval : Type :=
| VNull                                          (* null: the pointer or map is nil *)
| VErr                                           (* the value does not decode *)
| VNode (n : schemaNode)
| VMap (l : list (string * schemaNode))
| VList (l : list schemaNode)
| VItems (d : itemsData schemaNode)
| VNof (d : nodeOrFalse schemaNode)
| VRaw (j : json).                               (* not a schema position: kept as text *)

Inductive fkind : Type := KNode | KMap | KList | KItems | KNof | KRaw.
''')
kn={"node":"KNode","map":"KMap","barmap":"KMap","list":"KList","items":"KItems","nof":"KNof"}
print("(* which members of a schema object hold schemas (parse.go 95-176) *)\nDefinition kindOf (k : string) : fkind :=")
for K in ["KNode","KMap","KList","KItems","KNof"]:
    ks=[k for f,k,t in F if kn.get(t)==K]
    print("  if mem_string k [%s] then %s else" % ("; ".join('"%s"'%k for k in ks),K))
print("  KRaw.\n")
print(r'''(* one member, given the decoder for nodes.
   json.go 70-90 itemsData.UnmarshalJSON decodes the value both into a *schemaNode and into a
   *[]schemaNode and keeps both pointers.  encoding/json allocates the pointer before it notices that the
   value does not fit, so an object leaves Nodes pointing at a nil slice (Some []) and an array leaves
   Node pointing at the zero schemaNode (Some emptyNode).
   json.go 107-129 schemaNodeOrFalse.UnmarshalJSON. *)
Definition decField (D : json -> option schemaNode) (k : string) (v : json) : dval :=
  match kindOf k with
  | KRaw => match v with JNull => VNull | _ => VRaw v end
  | KNode => match v with JNull => VNull | _ => match D v with Some n => VNode n | None => VErr end end
  | KMap =>
      match v with
      | JNull => VNull
      | JObj m => match allSomeKV D m with Some l => VMap l | None => VErr end
      | _ => VErr
      end
  | KList =>
      match v with
      | JNull => VNull
      | JArr l => match allSome D l with Some l' => VList l' | None => VErr end
      | _ => VErr
      end
  | KItems =>
      match v with
      | JNull => VNull
      | JBool false => VItems (mkItems None None true)
      | JObj _ => match D v with Some n => VItems (mkItems (Some n) (Some []) false) | None => VErr end
      | JArr l => match allSome D l with Some l' => VItems (mkItems (Some emptyNode) (Some l') false) | None => VErr end
      | _ => VErr
      end
  | KNof =>
      match v with
      | JNull => VNull
      | JBool false => VNof (mkNOF None true)
      | JBool true => VNof (mkNOF None false)
      | _ => match D v with Some n => VNof (mkNOF (Some n) false) | None => VErr end
      end
  end.

(* reading one field out of the decoded members: the outer None is an error *)
Definition fRaw {A} (dec : json -> option A) (fs : list (string * dval)) (k : string) : option (option A) :=
  match assoc k fs with
  | None => Some None
  | Some VNull => Some None
  | Some (VRaw j) => match dec j with Some a => Some (Some a) | None => None end
  | Some _ => None
  end.
Definition fNode (fs : list (string * dval)) (k : string) : option (option schemaNode) :=
  match assoc k fs with None => Some None | Some VNull => Some None | Some (VNode n) => Some (Some n) | Some _ => None end.
Definition fMap (fs : list (string * dval)) (k : string) : option (option (list (string * schemaNode))) :=
  match assoc k fs with None => Some None | Some VNull => Some None | Some (VMap n) => Some (Some n) | Some _ => None end.
Definition fList (fs : list (string * dval)) (k : string) : option (option (list schemaNode)) :=
  match assoc k fs with None => Some None | Some VNull => Some None | Some (VList n) => Some (Some n) | Some _ => None end.
Definition fItems (fs : list (string * dval)) (k : string) : option (option (itemsData schemaNode)) :=
  match assoc k fs with None => Some None | Some VNull => Some None | Some (VItems n) => Some (Some n) | Some _ => None end.
Definition fNof (fs : list (string * dval)) (k : string) : option (option (nodeOrFalse schemaNode)) :=
  match assoc k fs with None => Some None | Some VNull => Some None | Some (VNof n) => Some (Some n) | Some _ => None end.
(* json.go 146-169: a member "const": null is kept as a pointer to nil *)
Definition fConst (fs : list (string * dval)) (k : string) : option (option json) :=
  match assoc k fs with
  | None => Some None
  | Some VNull => Some (Some JNull)
  | Some (VRaw j) => match decAny j with Some a => Some (Some a) | None => None end
  | Some _ => None
  end.
Definition orNil {A} (o : option (option (list A))) : option (list A) :=
  match o with Some (Some l) => Some l | Some None => Some [] | None => None end.

Notation "'let?' x := m 'in' k" := (match m with Some x => k | None => None end) (at level 200, x name, m at level 100, k at level 200).
''')
rd={"type":"fRaw decType","int":"fRaw decInt","flt":"fRaw decFloat","str":"fRaw decStr","strs":"fRaw decStrs","bool":"fRaw decBool",
    "anys":"fRaw decAnys","const":"fConst","node":"fNode","map":"fMap","list":"fList","items":"fItems","nof":"fNof"}
print("(* parse.go 95-176, the fields in struct order *)\nDefinition assemble (fs : list (string * dval)) : option schemaNode :=")
for i,(f,k,t) in enumerate(F):
    if t=="strsmap": e='orNil (fRaw decStrsMap fs "%s")'%k
    elif t=="barmap": e='orNil (fMap fs "%s")'%k
    else: e='%s fs "%s"'%(rd[t],k)
    print("  let? x%d := %s in"%(i,e))
print("  Some (mkNode %s [] [] None).\n"%" ".join("x%d"%i for i in range(len(F))))
print(r'''(* json.go 146-169 schemaNode.UnmarshalJSON.  null leaves the zero value; any other non-object fails. *)
Fixpoint decodeNode (j : json) : option schemaNode :=
  match j with
  | JNull => Some emptyNode
  | JObj m =>
      assemble ((fix go (m : list (string * json)) : list (string * dval) :=
                   match m with
                   | [] => []
                   | (k, v) :: r => (k, decField decodeNode k v) :: go r
                   end) m)
  | _ => None
  end.

Definition omem (k : string) (o : option json) : list (string * json) := match o with Some j => [(k, j)] | None => [] end.
Definition omap {A B} (f : A -> B) (o : option A) : option B := match o with Some a => Some (f a) | None => None end.
Definition onil {A B} (f : list A -> B) (l : list A) : option B := match l with [] => None | _ => Some (f l) end.

(* json.go 92-105 itemsData.MarshalJSON *)
Definition encItems (E : schemaNode -> json) (d : itemsData schemaNode) : json :=
  if itDisallow d then JBool false
  else match itNode d with
       | Some n => E n
       | None => match itNodes d with Some l => JArr (map E l) | None => JNull end
       end.

(* json.go 131-141 schemaNodeOrFalse.MarshalJSON *)
Definition encNof (E : schemaNode -> json) (d : nodeOrFalse schemaNode) : json :=
  if nofFalse d then JBool false
  else match nofSchema d with Some n => E n | None => JNull end.

(* json.Marshal of a schemaNode: every field is omitted when its pointer is nil or its map is empty; the
   unexported fields are not written.  Go sorts the keys of a map; the model keeps the order. *)
Definition encKV (E : schemaNode -> json) (l : list (string * schemaNode)) : json :=
  JObj (map (fun p => match p with (k, x) => (k, E x) end) l).
Definition encList (E : schemaNode -> json) (l : list schemaNode) : json := JArr (map E l).
Definition encStrsMap (l : list (string * list string)) : json :=
  JObj (map (fun p => match p with (k, x) => (k, JArr (map JStr x)) end) l).
Fixpoint encodeNode (n : schemaNode) : json :=
  let '(mkNode''')
print("    "+" ".join("x%d"%i for i in range(len(F)))+" _ _ _) := n in\n  JObj (")
we={"type":"encType","int":"JInt","flt":"encFloat","str":"JStr","strs":"(fun l => JArr (map JStr l))","bool":"JBool",
    "anys":"(fun l => JArr (map encAny l))","const":"encAny","node":"encodeNode","map":"(encKV encodeNode)","list":"(encList encodeNode)","items":"(encItems encodeNode)","nof":"(encNof encodeNode)"}
parts=[]
for i,(f,k,t) in enumerate(F):
    if t=="strsmap": e='onil encStrsMap x%d'%i
    elif t=="barmap": e='onil (encKV encodeNode) x%d'%i
    else: e='omap %s x%d'%(we[t],i)
    parts.append('    omem "%s" (%s)'%(k,e))
print(" ++\n".join(parts)+").")
