(* Reading a schema node from JSON and writing it back: json.go and the struct tags of parse.go 95-176.
   Generated by tools/mkcodec.py.

   A JSON text is a json value in which JInt z is a number written as an integer literal and JFloat f a
   number written with a fraction or an exponent, standing for the float64 it reads as.
   Simplifications: an object has no repeated key, keys are matched exactly (encoding/json also accepts
   another capitalisation), and the order of an object's members stands for the iteration order of the
   Go map they end up in. *)
From Coq Require Import ZArith List String Bool.
From Flocq Require Import Core BinarySingleNaN.
From Verif Require Import Base Float64 Json Schema.
Import ListNotations.
Open Scope string_scope.
Open Scope Z_scope.

(* --- numbers --- *)

(* encoding/json, decoding into an int: strconv.ParseInt of the literal *)
Definition decInt (j : json) : option Z :=
  match j with
  | JInt z => if (- 2^63 <=? z) && (z <? 2^63) then Some z else None
  | _ => None
  end.

Definition finite (f : f64) : bool := match f with B754_zero _ => true | B754_finite _ _ _ _ => true | _ => false end.

(* encoding/json, decoding into a float64: strconv.ParseFloat, which fails on overflow *)
Definition decFloat (j : json) : option f64 :=
  match j with
  | JInt z => if finite (fofZ z) then Some (fofZ z) else None
  | JFloat f => if finite f then Some f else None
  | _ => None
  end.

(* encoding/json, writing a float64: format 'f' with the shortest digits when |f| < 1e21, so a whole
   number is written without a fraction (but -0 keeps its sign); otherwise the exponent form. *)
Definition bigFloat : f64 := fofZ (10 ^ 21).
Definition wholeSmall (f : f64) : bool :=
  match f with
  | B754_zero s => negb s
  | B754_finite _ _ _ _ => feqb (ftrunc f) f && fltb (fabs f) bigFloat
  | _ => false
  end.
Definition encFloat (f : f64) : json := if wholeSmall f then JInt (Btrunc f) else JFloat f.

(* encoding/json, decoding into interface{}: every number becomes a float64 *)
Fixpoint decAny (j : json) : option json :=
  match j with
  | JNull => Some JNull
  | JBool b => Some (JBool b)
  | JInt z => if finite (fofZ z) then Some (JFloat (fofZ z)) else None
  | JFloat f => if finite f then Some (JFloat f) else None
  | JStr s => Some (JStr s)
  | JArr l =>
      match (fix go (l : list json) : option (list json) :=
        match l with
        | [] => Some []
        | x :: r => match decAny x, go r with Some a, Some b => Some (a :: b) | _, _ => None end
        end) l with Some l' => Some (JArr l') | None => None end
  | JObj m =>
      match (fix go (m : list (string * json)) : option (list (string * json)) :=
        match m with
        | [] => Some []
        | (k, x) :: r => match decAny x, go r with Some a, Some b => Some ((k, a) :: b) | _, _ => None end
        end) m with Some m' => Some (JObj m') | None => None end
  end.

(* encoding/json, writing an interface{} *)
Fixpoint encAny (j : json) : json :=
  match j with
  | JFloat f => encFloat f
  | JArr l => JArr (map encAny l)
  | JObj m => JObj (map (fun kv => (fst kv, encAny (snd kv))) m)
  | _ => j
  end.

(* --- the leaves of a schema node --- *)

(* all elements decode, or the whole array fails *)
Definition allSome {A B : Type} (f : A -> option B) : list A -> option (list B) :=
  fix go l :=
  match l with
  | [] => Some []
  | x :: r => match f x, go r with Some a, Some b => Some (a :: b) | _, _ => None end
  end.
Definition allSomeKV {A B : Type} (f : A -> option B) : list (string * A) -> option (list (string * B)) :=
  fix go l :=
  match l with
  | [] => Some []
  | (k, x) :: r => match f x, go r with Some a, Some b => Some ((k, a) :: b) | _, _ => None end
  end.

Definition decStr (j : json) : option string := match j with JStr s => Some s | _ => None end.
(* a null inside a []string leaves the empty string *)
Definition decStrElem (j : json) : option string := match j with JStr s => Some s | JNull => Some "" | _ => None end.
Definition decStrs (j : json) : option (list string) := match j with JArr l => allSome decStrElem l | _ => None end.
Definition decBool (j : json) : option bool := match j with JBool b => Some b | _ => None end.
Definition decAnys (j : json) : option (list json) := match j with JArr l => allSome decAny l | _ => None end.
(* a null value of a map[string][]string leaves the nil slice *)
Definition decStrsElem (j : json) : option (list string) := match j with JNull => Some [] | _ => decStrs j end.
Definition decStrsMap (j : json) : option (list (string * list string)) :=
  match j with JObj m => allSomeKV decStrsElem m | _ => None end.

(* json.go 38-58 multipleType.UnmarshalJSON: null never reaches it, the pointer is set to nil *)
Definition decType (j : json) : option multipleType :=
  match j with
  | JStr s => Some (mkMT s None)
  | JArr l => match allSome decStrElem l with Some ts => Some (mkMT "" (Some ts)) | None => None end
  | _ => None
  end.

(* json.go 60-68 multipleType.MarshalJSON *)
Definition encType (t : multipleType) : json :=
  if negb (String.eqb (mtSingle t) "") then JStr (mtSingle t)
  else match mtMultiple t with
       | Some (x :: r) => JArr (map JStr (x :: r))
       | _ => JNull
       end.

(* --- nodes --- *)

(* what a member of the JSON object was read as *)
Inductive dval : Type :=
| VNull                                          (* null: the pointer or map is nil *)
| VErr                                           (* the value does not decode *)
| VNode (n : schemaNode)
| VMap (l : list (string * schemaNode))
| VList (l : list schemaNode)
| VItems (d : itemsData schemaNode)
| VNof (d : nodeOrFalse schemaNode)
| VRaw (j : json).                               (* not a schema position: kept as text *)

Inductive fkind : Type := KNode | KMap | KList | KItems | KNof | KRaw.

(* which members of a schema object hold schemas (parse.go 95-176) *)
Definition kindOf (k : string) : fkind :=
  if mem_string k ["contains"; "not"; "if"; "then"; "else"] then KNode else
  if mem_string k ["properties"; "patternProperties"; "$defs"; "definitions"; "dependentSchemas"] then KMap else
  if mem_string k ["prefixItems"; "allOf"; "anyOf"; "oneOf"] then KList else
  if mem_string k ["items"] then KItems else
  if mem_string k ["additionalProperties"; "additionalItems"; "unevaluatedItems"] then KNof else
  KRaw.

(* one member, given the decoder for nodes.
   json.go 70-90 itemsData.UnmarshalJSON decodes the value both into a *schemaNode and into a
   *[]schemaNode and keeps both pointers.  encoding/json allocates the pointer before it notices that the
   value does not fit, so an object leaves Nodes pointing at a nil slice (Some []) and an array leaves
   Node pointing at the zero schemaNode (Some emptyNode).
   json.go 107-129 schemaNodeOrFalse.UnmarshalJSON. *)
Definition decField (D : json -> option schemaNode) (k : string) (v : json) : dval :=
  match kindOf k with
  | KRaw => match v with JNull => VNull | _ => VRaw v end
  | KNode => match v with JNull => VNull | _ => match D v with Some n => VNode n | None => VErr end end
  | KMap =>
      match v with
      | JNull => VNull
      | JObj m => match allSomeKV D m with Some l => VMap l | None => VErr end
      | _ => VErr
      end
  | KList =>
      match v with
      | JNull => VNull
      | JArr l => match allSome D l with Some l' => VList l' | None => VErr end
      | _ => VErr
      end
  | KItems =>
      match v with
      | JNull => VNull
      | JBool false => VItems (mkItems None None true)
      | JObj _ => match D v with Some n => VItems (mkItems (Some n) (Some []) false) | None => VErr end
      | JArr l => match allSome D l with Some l' => VItems (mkItems (Some emptyNode) (Some l') false) | None => VErr end
      | _ => VErr
      end
  | KNof =>
      match v with
      | JNull => VNull
      | JBool false => VNof (mkNOF None true)
      | JBool true => VNof (mkNOF None false)
      | _ => match D v with Some n => VNof (mkNOF (Some n) false) | None => VErr end
      end
  end.

(* reading one field out of the decoded members: the outer None is an error *)
Definition fRaw {A} (dec : json -> option A) (fs : list (string * dval)) (k : string) : option (option A) :=
  match assoc k fs with
  | None => Some None
  | Some VNull => Some None
  | Some (VRaw j) => match dec j with Some a => Some (Some a) | None => None end
  | Some _ => None
  end.
Definition fNode (fs : list (string * dval)) (k : string) : option (option schemaNode) :=
  match assoc k fs with None => Some None | Some VNull => Some None | Some (VNode n) => Some (Some n) | Some _ => None end.
Definition fMap (fs : list (string * dval)) (k : string) : option (option (list (string * schemaNode))) :=
  match assoc k fs with None => Some None | Some VNull => Some None | Some (VMap n) => Some (Some n) | Some _ => None end.
Definition fList (fs : list (string * dval)) (k : string) : option (option (list schemaNode)) :=
  match assoc k fs with None => Some None | Some VNull => Some None | Some (VList n) => Some (Some n) | Some _ => None end.
Definition fItems (fs : list (string * dval)) (k : string) : option (option (itemsData schemaNode)) :=
  match assoc k fs with None => Some None | Some VNull => Some None | Some (VItems n) => Some (Some n) | Some _ => None end.
Definition fNof (fs : list (string * dval)) (k : string) : option (option (nodeOrFalse schemaNode)) :=
  match assoc k fs with None => Some None | Some VNull => Some None | Some (VNof n) => Some (Some n) | Some _ => None end.
(* json.go 146-169: a member "const": null is kept as a pointer to nil *)
Definition fConst (fs : list (string * dval)) (k : string) : option (option json) :=
  match assoc k fs with
  | None => Some None
  | Some VNull => Some (Some JNull)
  | Some (VRaw j) => match decAny j with Some a => Some (Some a) | None => None end
  | Some _ => None
  end.
Definition orNil {A} (o : option (option (list A))) : option (list A) :=
  match o with Some (Some l) => Some l | Some None => Some [] | None => None end.

Notation "'let?' x := m 'in' k" := (match m with Some x => k | None => None end) (at level 200, x name, m at level 100, k at level 200).

(* parse.go 95-176, the fields in struct order *)
Definition assemble (fs : list (string * dval)) : option schemaNode :=
  let? x0 := fRaw decType fs "type" in
  let? x1 := fRaw decInt fs "length" in
  let? x2 := fMap fs "properties" in
  let? x3 := fNof fs "additionalProperties" in
  let? x4 := fMap fs "patternProperties" in
  let? x5 := fRaw decInt fs "minProperties" in
  let? x6 := fRaw decInt fs "maxProperties" in
  let? x7 := fRaw decStrs fs "required" in
  let? x8 := fRaw decStr fs "pattern" in
  let? x9 := fRaw decStr fs "format" in
  let? x10 := fRaw decInt fs "minLength" in
  let? x11 := fRaw decInt fs "maxLength" in
  let? x12 := fRaw decFloat fs "minimum" in
  let? x13 := fRaw decFloat fs "maximum" in
  let? x14 := fRaw decFloat fs "exclusiveMinimum" in
  let? x15 := fRaw decFloat fs "exclusiveMaximum" in
  let? x16 := fRaw decFloat fs "multipleOf" in
  let? x17 := fItems fs "items" in
  let? x18 := fRaw decInt fs "minItems" in
  let? x19 := fRaw decInt fs "maxItems" in
  let? x20 := fNode fs "contains" in
  let? x21 := fRaw decInt fs "minContains" in
  let? x22 := fRaw decInt fs "maxContains" in
  let? x23 := fList fs "prefixItems" in
  let? x24 := fNof fs "additionalItems" in
  let? x25 := fNof fs "unevaluatedItems" in
  let? x26 := fRaw decBool fs "uniqueItems" in
  let? x27 := fRaw decAnys fs "enum" in
  let? x28 := fConst fs "const" in
  let? x29 := fNode fs "not" in
  let? x30 := fList fs "allOf" in
  let? x31 := fList fs "anyOf" in
  let? x32 := fList fs "oneOf" in
  let? x33 := fRaw decStr fs "$ref" in
  let? x34 := fRaw decStr fs "$id" in
  let? x35 := fMap fs "$defs" in
  let? x36 := fMap fs "definitions" in
  let? x37 := fNode fs "if" in
  let? x38 := fNode fs "then" in
  let? x39 := fNode fs "else" in
  let? x40 := orNil (fRaw decStrsMap fs "dependentRequired") in
  let? x41 := orNil (fMap fs "dependentSchemas") in
  Some (mkNode x0 x1 x2 x3 x4 x5 x6 x7 x8 x9 x10 x11 x12 x13 x14 x15 x16 x17 x18 x19 x20 x21 x22 x23 x24 x25 x26 x27 x28 x29 x30 x31 x32 x33 x34 x35 x36 x37 x38 x39 x40 x41 [] [] None).

(* json.go 146-169 schemaNode.UnmarshalJSON.  null leaves the zero value; any other non-object fails. *)
Fixpoint decodeNode (j : json) : option schemaNode :=
  match j with
  | JNull => Some emptyNode
  | JObj m =>
      assemble ((fix go (m : list (string * json)) : list (string * dval) :=
                   match m with
                   | [] => []
                   | (k, v) :: r => (k, decField decodeNode k v) :: go r
                   end) m)
  | _ => None
  end.

Definition omem (k : string) (o : option json) : list (string * json) := match o with Some j => [(k, j)] | None => [] end.
Definition omap {A B} (f : A -> B) (o : option A) : option B := match o with Some a => Some (f a) | None => None end.
Definition onil {A B} (f : list A -> B) (l : list A) : option B := match l with [] => None | _ => Some (f l) end.

(* json.go 92-105 itemsData.MarshalJSON *)
Definition encItems (E : schemaNode -> json) (d : itemsData schemaNode) : json :=
  if itDisallow d then JBool false
  else match itNode d with
       | Some n => E n
       | None => match itNodes d with Some l => JArr (map E l) | None => JNull end
       end.

(* json.go 131-141 schemaNodeOrFalse.MarshalJSON *)
Definition encNof (E : schemaNode -> json) (d : nodeOrFalse schemaNode) : json :=
  if nofFalse d then JBool false
  else match nofSchema d with Some n => E n | None => JNull end.

(* json.Marshal of a schemaNode: every field is omitted when its pointer is nil or its map is empty; the
   unexported fields are not written.  Go sorts the keys of a map; the model keeps the order. *)
Definition encKV (E : schemaNode -> json) (l : list (string * schemaNode)) : json :=
  JObj (map (fun p => match p with (k, x) => (k, E x) end) l).
Definition encList (E : schemaNode -> json) (l : list schemaNode) : json := JArr (map E l).
Definition encStrsMap (l : list (string * list string)) : json :=
  JObj (map (fun p => match p with (k, x) => (k, JArr (map JStr x)) end) l).
Fixpoint encodeNode (n : schemaNode) : json :=
  let '(mkNode
    x0 x1 x2 x3 x4 x5 x6 x7 x8 x9 x10 x11 x12 x13 x14 x15 x16 x17 x18 x19 x20 x21 x22 x23 x24 x25 x26 x27 x28 x29 x30 x31 x32 x33 x34 x35 x36 x37 x38 x39 x40 x41 _ _ _) := n in
  JObj (
    omem "type" (omap encType x0) ++
    omem "length" (omap JInt x1) ++
    omem "properties" (omap (encKV encodeNode) x2) ++
    omem "additionalProperties" (omap (encNof encodeNode) x3) ++
    omem "patternProperties" (omap (encKV encodeNode) x4) ++
    omem "minProperties" (omap JInt x5) ++
    omem "maxProperties" (omap JInt x6) ++
    omem "required" (omap (fun l => JArr (map JStr l)) x7) ++
    omem "pattern" (omap JStr x8) ++
    omem "format" (omap JStr x9) ++
    omem "minLength" (omap JInt x10) ++
    omem "maxLength" (omap JInt x11) ++
    omem "minimum" (omap encFloat x12) ++
    omem "maximum" (omap encFloat x13) ++
    omem "exclusiveMinimum" (omap encFloat x14) ++
    omem "exclusiveMaximum" (omap encFloat x15) ++
    omem "multipleOf" (omap encFloat x16) ++
    omem "items" (omap (encItems encodeNode) x17) ++
    omem "minItems" (omap JInt x18) ++
    omem "maxItems" (omap JInt x19) ++
    omem "contains" (omap encodeNode x20) ++
    omem "minContains" (omap JInt x21) ++
    omem "maxContains" (omap JInt x22) ++
    omem "prefixItems" (omap (encList encodeNode) x23) ++
    omem "additionalItems" (omap (encNof encodeNode) x24) ++
    omem "unevaluatedItems" (omap (encNof encodeNode) x25) ++
    omem "uniqueItems" (omap JBool x26) ++
    omem "enum" (omap (fun l => JArr (map encAny l)) x27) ++
    omem "const" (omap encAny x28) ++
    omem "not" (omap encodeNode x29) ++
    omem "allOf" (omap (encList encodeNode) x30) ++
    omem "anyOf" (omap (encList encodeNode) x31) ++
    omem "oneOf" (omap (encList encodeNode) x32) ++
    omem "$ref" (omap JStr x33) ++
    omem "$id" (omap JStr x34) ++
    omem "$defs" (omap (encKV encodeNode) x35) ++
    omem "definitions" (omap (encKV encodeNode) x36) ++
    omem "if" (omap encodeNode x37) ++
    omem "then" (omap encodeNode x38) ++
    omem "else" (omap encodeNode x39) ++
    omem "dependentRequired" (onil encStrsMap x40) ++
    omem "dependentSchemas" (onil (encKV encodeNode) x41)).
