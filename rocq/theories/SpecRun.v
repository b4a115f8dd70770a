(* Vocabulary of the properties about generated values: a schema node is accepted by the parser, a
   generator is run, a value was made during a run. *)
From Coq Require Import ZArith List String Ascii Bool.
From Verif Require Import Base Float64 Json Schema Util Options Number Gen GenInv PState RefPath Merge Parse.
Import ListNotations.
Open Scope string_scope.
Open Scope Z_scope.

(* the node n, met in any state of the parser, was turned into the generator g / was refused *)
Definition accepted (PE : penv) (n : schemaNode) (g : gen) : Prop :=
  exists fuel s s', parseNode PE fuel n s = Ok (Good g, s').
Definition rejected (PE : penv) (n : schemaNode) : Prop :=
  exists fuel s s' msg, parseNode PE fuel n s = Ok (Bad msg, s').

(* one call of Generate, from the state st to the state st' *)
Definition yields (GE : env) (g : gen) (st : gst) (v : json) (st' : gst) : Prop :=
  exists fuel, generate GE fuel g st = Ok (v, st').
(* v is the result of a call of g made between st and st' *)
Definition madeBy (GE : env) (g : gen) (v : json) (st st' : gst) : Prop :=
  exists a b, yields GE g a v b /\ after st a /\ after b st'.
(* the call started past the cutoff and returned null *)
Definition cutShort (GE : env) (st : gst) (v : json) : Prop :=
  v = JNull /\ shouldCutoff (eOpts GE) (gCx st + 1) = true.

(* no reference, combination, condition, negation, enum or const *)
Record plain (n : schemaNode) : Prop := mkPlain {
  plRef : sRef n = None;
  plAllOf : sAllOf n = None;
  plAnyOf : sAnyOf n = None;
  plOneOf : sOneOf n = None;
  plNot : sNot n = None;
  plIf : sIf n = None;
  plEnum : sEnum n = None;
  plConst : sConst n = None;
  (* filled in by merging only *)
  plMergedNot : sMergedNot n = [];
  plMergedIf : sMergedIf n = [];
  plConstraints : sConstraints n = None }.
(* the same, but enum and const are allowed *)
Record flat (n : schemaNode) : Prop := mkFlat {
  flRef : sRef n = None; flAllOf : sAllOf n = None; flAnyOf : sAnyOf n = None; flOneOf : sOneOf n = None;
  flNot : sNot n = None; flIf : sIf n = None; flMergedNot : sMergedNot n = []; flMergedIf : sMergedIf n = [];
  flConstraints : sConstraints n = None }.
(* "type": t *)
Definition ofType (t : string) (n : schemaNode) : Prop := sType n = Some (mkMT t None).

(* the integer keywords of a node / the integer options are natural numbers that fit easily in an int *)
Definition smallSizes (n : schemaNode) : Prop :=
  (forall k, In (Some k) [sMinLength n; sMaxLength n; sMinItems n; sMaxItems n; sMinContains n; sMaxContains n;
                          sMinProperties n; sMaxProperties n] -> 0 <= k < 2 ^ 60) /\
  Z.of_nat (List.length (get_or (sPrefixItems n) [])) < 2 ^ 60 /\
  Z.of_nat (List.length (get_or (sProperties n) [])) < 2 ^ 60 /\ Z.of_nat (List.length (get_or (sRequired n) [])) < 2 ^ 60.
Definition smallOptions (o : genOptions) : Prop :=
  forall k, In k [oDefaultArrayMinItems o; oDefaultArrayMaxItems o; oDefaultObjectMinProperties o;
                  oDefaultObjectMaxProperties o] -> 0 <= k < 2 ^ 60.

(* a child of a schema: the generator of the node n, or null if n was refused *)
Definition childOf (PE : penv) (n : schemaNode) (g : gen) : Prop := accepted PE n g \/ (rejected PE n /\ g = GNull).

(* x was generated from the schema n between st and st' *)
Definition fromSchema (PE : penv) (GE : env) (n : schemaNode) (x : json) (st st' : gst) : Prop :=
  exists g, accepted PE n g /\ madeBy GE g x st st'.
(* the same, or n was refused and the value is the null that stands for it *)
Definition fromChild (PE : penv) (GE : env) (n : schemaNode) (x : json) (st st' : gst) : Prop :=
  fromSchema PE GE n x st st' \/ (rejected PE n /\ x = JNull).

(* ---------------------------------------------------------- reading the keywords of objects and arrays *)
Definition addlNode (n : schemaNode) : option schemaNode :=
  match sAdditionalProperties n with Some d => if nofFalse d then None else nofSchema d | None => None end.
Definition addlFalse (n : schemaNode) : bool :=
  match sAdditionalProperties n with Some d => nofFalse d | None => false end.

(* the positional schemas of an array *)
Definition positional (n : schemaNode) : list schemaNode :=
  match sPrefixItems n with
  | Some (x :: r) => x :: r
  | _ => match sItems n with Some d => get_or (itNodes d) [] | None => [] end
  end.
Definition itemsNode (n : schemaNode) : option schemaNode :=
  match sItems n with Some d => if itDisallow d then None else itNode d | None => None end.
Definition itemsFalse (n : schemaNode) : bool := match sItems n with Some d => itDisallow d | None => false end.
Definition addlItemsNode (n : schemaNode) : option schemaNode :=
  match sAdditionalItems n with Some d => nofSchema d | None => None end.
Definition addlItemsFalse (n : schemaNode) : bool := match sAdditionalItems n with Some d => nofFalse d | None => false end.
Definition unevalNode (n : schemaNode) : option schemaNode :=
  match sUnevaluatedItems n with Some d => if nofFalse d then None else nofSchema d | None => None end.
Definition unevalFalse (n : schemaNode) : bool := match sUnevaluatedItems n with Some d => nofFalse d | None => false end.
Definition minContainsOf (n : schemaNode) : Z :=
  if (get_or (sMinContains n) 0 =? 0) && is_some (sContains n) then 1 else get_or (sMinContains n) 0.
Definition prefixLength (n : schemaNode) : Z := Z.of_nat (List.length (get_or (sPrefixItems n) [])).
(* the node the elements for "contains" are generated from: contains merged with items if that is a schema *)
Definition containsFrom (PE : penv) (c : schemaNode) (n c' : schemaNode) : Prop :=
  match sItems n with
  | Some d => match itNode d with
              | Some it => exists f s m s', merge PE f [it; c] s = Ok (m, s') /\ c' = set_sContains None m
              | None => c' = c
              end
  | None => c' = c
  end.

(* ---------------------------------------------------------- what sub-schemas become *)
(* the resource compiled for validation: the one already registered under the name, if any *)
Definition compiledAs (PE : penv) (s : pst) (n : schemaNode) (field : string) (c : schemaNode) : Prop :=
  c = get_or (assoc (scope s ++ normalisePath (pPath s ++ "/" ++ field)) (pRes s)) n /\ pxCompile PE c = true.
(* g was made for a branch: the base schema (merged, without the combination keyword) merged with it *)
Definition branchOf (PE : penv) (one : bool) (n sub : schemaNode) (g : gen) : Prop :=
  exists f s1 base s2 m s3 s4,
    merge PE f [n] s1 = Ok (base, s2) /\
    merge PE f [if one then set_sOneOf None base else set_sAnyOf None base; sub] s3 = Ok (m, s4) /\ childOf PE m g.
(* g was made for a then or else branch merged with the rest of the node; None: no branch, or the
   branch was refused *)
Definition ifBranch (PE : penv) (parent : schemaNode) (body : option schemaNode) (o : option gen) : Prop :=
  match body with
  | None => o = None
  | Some b => exists f s m s', merge PE f [parent; b] s = Ok (m, s') /\
                match o with Some g => accepted PE m g | None => rejected PE m end
  end.

(* where a property k with value x of a generated object comes from *)
Inductive propertyOrigin (PE : penv) (GE : env) (n : schemaNode) (st st' : gst) (k : string) (x : json) : Prop :=
(* a name listed in properties *)
| po_declared : forall c, assoc k (get_or (sProperties n) []) = Some c -> fromChild PE GE c x st st' ->
    propertyOrigin PE GE n st st' k x
(* a required name that is not in properties: an arbitrary string *)
| po_required : forall t, In k (get_or (sRequired n) []) -> assoc k (get_or (sProperties n) []) = None -> x = JStr t ->
    propertyOrigin PE GE n st st' k x
(* a name generated from a pattern *)
| po_pattern : forall re c e, In (re, c) (get_or (sPatternProperties n) []) -> eRegen GE re e = Ok k ->
    fromChild PE GE c x st st' -> propertyOrigin PE GE n st st' k x
(* the pattern is not a regular expression the generator takes *)
| po_badpattern : forall re c, In (re, c) (get_or (sPatternProperties n) []) -> pxPropRegexOk PE re = false ->
    k = "" -> x = JNull -> propertyOrigin PE GE n st st' k x
(* an additional property *)
| po_additional : forall i c, 0 <= i -> get_or (sPatternProperties n) [] = [] -> addlNode n = Some c ->
    k = "additional_" ++ itoa i -> fromChild PE GE c x st st' -> propertyOrigin PE GE n st st' k x
| po_fallback : forall i, 0 <= i -> get_or (sPatternProperties n) [] = [] -> addlFalse n = false -> addlNode n = None ->
    k = "fallback_" ++ itoa i -> x = JNull -> propertyOrigin PE GE n st st' k x
(* a property added to reach the minimum, which the required ones do not reach *)
| po_filler : forall i, 0 <= i -> (get_or (sPatternProperties n) [] <> [] \/ addlFalse n = false) ->
    (NoDup (get_or (sRequired n) []) ->
     Z.of_nat (List.length (get_or (sRequired n) [])) < Z.max (get_or (sMinProperties n) 0) (oDefaultObjectMinProperties (eOpts GE))) ->
    k = "min_filler_" ++ itoa i ->
    match addlNode n with Some c => fromChild PE GE c x st st' | None => x = JNull end ->
    propertyOrigin PE GE n st st' k x.

(* ---------------------------------------------------------- strings, lists and nodes *)
(* all bytes below 128 *)
Definition isAscii (s : string) : Prop := forall c, In c (list_ascii_of_string s) -> (nat_of_ascii c < 128)%nat.
(* number of characters of a UTF-8 string: bytes that do not continue a character *)
Fixpoint chars (s : string) : Z :=
  match s with
  | EmptyString => 0
  | String c r => (if ((128 <=? nat_of_ascii c) && (nat_of_ascii c <? 192))%nat then 0 else 1) + chars r
  end.

(* pairwise different JSON texts *)
Definition textsDiffer (l : list json) : Prop :=
  forall i j a b, nth_error l i = Some a -> nth_error l j = Some b -> i <> j -> marshal a <> marshal b.

(* n with "type": t *)
Definition withType (t : string) (n : schemaNode) : schemaNode := set_sType (Some (mkMT t None)) n.
(* n without its conditions *)
Definition withoutIf (n : schemaNode) : schemaNode := set_sIf None (set_sThen None (set_sElse None (set_sMergedIf [] n))).
(* es: the schemas a value of "oneOf": l is checked against - each branch merged on its own and
   compiled; branches may be missing when some could not be compiled *)
Definition checkedBranches (PE : penv) (l es : list schemaNode) : Prop :=
  exists ms, Forall2 (fun n m => exists f s1 s2, merge PE f [n] s1 = Ok (m, s2)) l ms /\
    (List.length es <= List.length ms)%nat /\
    (List.length es = List.length ms -> Forall2 (fun m e => exists t j, compiledAs PE t m ("oneOf/" ++ itoa j) e) ms es).
Definition exactlyOne {A} (p : A -> Prop) (l : list A) : Prop :=
  exists a x b, l = (a ++ x :: b)%list /\ p x /\ (forall y, In y (a ++ b)%list -> ~ p y).

(* the kind of a JSON value, as "type" names it; integers are numbers *)
Definition jkind (v : json) : string :=
  match v with
  | JNull => "null" | JBool _ => "boolean" | JInt _ => "number" | JFloat _ => "number"
  | JStr _ => "string" | JArr _ => "array" | JObj _ => "object"
  end.
