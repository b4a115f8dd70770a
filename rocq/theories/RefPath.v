(* reference_path.go: finding the schema node a JSON pointer addresses. *)
From Coq Require Import ZArith List String Ascii Bool Lia.
From Verif Require Import Base Float64 Json Schema Number PState.
Import ListNotations.
Open Scope string_scope.
Open Scope Z_scope.

(* reference_path.go 142-151 getReferencePathToken: up to the first "/", and what follows it *)
Fixpoint refToken (p : string) : string * string :=
  match p with
  | EmptyString => (EmptyString, EmptyString)
  | String c r => if Ascii.eqb c "/" then (EmptyString, r) else let '(t, rest) := refToken r in (String c t, rest)
  end.

Definition isDigit (c : ascii) : bool := let n := nat_of_ascii c in (48 <=? Z.of_nat n) && (Z.of_nat n <=? 57).
Fixpoint allDigits (str : string) : bool :=
  match str with EmptyString => true | String c r => isDigit c && allDigits r end.
(* the pattern ^\d+$ of reference_path.go 46 *)
Definition isNumber (str : string) : bool := negb (String.eqb str "") && allDigits str.

Fixpoint digitsVal (acc : Z) (str : string) : option Z :=
  match str with
  | EmptyString => Some acc
  | String c r => if isDigit c then digitsVal (acc * 10 + (Z.of_nat (nat_of_ascii c) - 48)) r else None
  end.
(* strconv.Atoi: optional sign, at least one digit, within int64 *)
Definition atoi (str : string) : option Z :=
  let '(neg, d) := match str with
                   | String c r => if Ascii.eqb c "-" then (true, r) else if Ascii.eqb c "+" then (false, r) else (false, str)
                   | EmptyString => (false, str) end in
  if String.eqb d "" then None else
  match digitsVal 0 d with
  | Some v => let z := if neg : bool then - v else v in
              if (- 2^63 <=? z) && (z <? 2^63) then Some z else None
  | None => None
  end.

Section Sub.
(* the recursive call, with the remaining path *)
Variable sub : option schemaNode -> string -> res (err schemaNode).

(* reference_path.go 101-116 resolveReferenceProperty *)
Definition refProperty (nodes : option (list (string * schemaNode))) (path : string) : res (err schemaNode) :=
  match nodes with
  | None => Ok (Bad "no properties")
  | Some l =>
      let '(name, rest) := refToken path in
      match assoc name l with
      | None => Ok (Bad "property not found")
      | Some n => sub (Some n) rest
      end
  end.

(* reference_path.go 118-138 resolveReferenceSlice; the bounds check is inverted in the source *)
Definition refSlice (nodes : option (list schemaNode)) (path : string) : res (err schemaNode) :=
  match nodes with
  | None => Ok (Bad "no items")
  | Some l =>
      let '(part, rest) := refToken path in
      match atoi part with
      | None => Ok (Bad "not a number")
      | Some i =>
          if (i <? Z.of_nat (List.length l)) || (i <? 0) then Ok (Bad "out of bounds")
          else match nth_error l (Z.to_nat i) with
               | Some n => sub (Some n) rest
               | None => Panic "index out of range"
               end
      end
  end.

(* reference_path.go 92-98 resolveFalseOrSchema, and 35-40: a nil pointer is dereferenced *)
Definition refNof (d : option (nodeOrFalse schemaNode)) (path : string) : res (err schemaNode) :=
  match d with
  | None => Panic "nil pointer dereference"
  | Some d => if nofFalse d then Ok (Bad "false") else sub (nofSchema d) path
  end.

(* reference_path.go 43-51 *)
Definition refItems (d : option (itemsData schemaNode)) (path : string) : res (err schemaNode) :=
  match d with
  | None => Panic "nil pointer dereference"
  | Some d =>
      if isNumber (fst (refToken path)) then refSlice (itNodes d) path else sub (itNode d) path
  end.

(* reference_path.go 20-90 the switch of resolveSubReferencePath *)
Definition refCase (n : schemaNode) (part path : string) : res (err schemaNode) :=
  if String.eqb part "properties" then refProperty (sProperties n) path
  else if String.eqb part "patternProperties" then refProperty (sPatternProperties n) path
  else if String.eqb part "additionalProperties" then refNof (sAdditionalProperties n) path
  else if String.eqb part "items" then refItems (sItems n) path
  else if String.eqb part "prefixItems" then refSlice (sPrefixItems n) path
  else if String.eqb part "contains" then sub (sContains n) path
  else if String.eqb part "additionalItems" then refNof (sAdditionalItems n) path
  else if String.eqb part "unevaluatedItems" then refNof (sUnevaluatedItems n) path
  else if String.eqb part "allOf" then refSlice (sAllOf n) path
  else if String.eqb part "anyOf" then refSlice (sAnyOf n) path
  else if String.eqb part "oneOf" then refSlice (sOneOf n) path
  else if String.eqb part "not" then sub (sNot n) path
  else if String.eqb part "if" then sub (sIf n) path
  else if String.eqb part "then" then sub (sThen n) path
  else if String.eqb part "else" then sub (sElse n) path
  else if String.eqb part "definitions" then refProperty (sDefinitions n) path
  else if String.eqb part "$defs" then refProperty (sDefs n) path
  else if String.eqb part "#" then sub (Some n) path
  else Ok (Bad "invalid reference path").
End Sub.

(* reference_path.go 19-33: the remaining path gets shorter with every call, so the fuel given by
   resolveSub is never exhausted *)
Fixpoint resolveSubF (fuel : nat) (node : option schemaNode) (path : string) : res (err schemaNode) :=
  match fuel with
  | O => Timeout
  | S f =>
      match node with
      | None => Ok (Bad "no schema node")
      | Some n =>
          let '(part, rest) := refToken path in
          if String.eqb rest "" then Ok (Good n) else refCase (resolveSubF f) n part rest
      end
  end.
Definition resolveSub (node : option schemaNode) (path : string) : res (err schemaNode) :=
  resolveSubF (S (String.length path)) node path.

Section ResolvePath.
Variable E : penv.

(* document.go 272-317 ResolvePath: the addressed node and its full name.  The documents of the model are
   never nil. *)
Definition resolvePath (ref : string) : P (err (schemaNode * string)) := fun s =>
  match matchRef ref with
  | None => Ok (Bad "invalid $ref", s)
  | Some _ =>
      if String.eqb (refDoc ref) "" then
        let! r := resolveSub (assoc (scope s) (pDocs s)) (refPath ref) in
        Ok (match r with Good n => Good (n, scope s ++ refPath ref) | Bad e => Bad e end, s)
      else match resolveDocRef E s (refDoc ref) (refPath ref) with
           | Bad e => Ok (Bad e, s)
           | Good (d, p) =>
               (let* doc := match assoc d (pDocs s) with
                            | Some n => pret (Good n)
                            | None => resolveDocument E d
                            end in
                match doc with
                | Bad e => pret (Bad e)
                | Good n =>
                    let* r := plift (resolveSub (Some n) p) in
                    match r with
                    | Bad e => pret (Bad e)
                    | Good t => run* setResolving d in pret (Good (t, d ++ p))
                    end
                end) s
           end
  end.
End ResolvePath.
