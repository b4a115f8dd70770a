(* The part of JSON Schema for which every generated value is valid (C47): which nodes belong to it, level by
   level.  The conditions leave out the corners where the property is false (maxLength, maxItems and
   maxProperties 0, exclusive bounds of numbers beyond 128, names such as min_filler_0, ...; the theorems
   named _refuted show them). *)
From Coq Require Import ZArith Reals List String Bool.
From Flocq Require Import Core BinarySingleNaN.
From Verif Require Import Base Float64 Json Schema Options Gen PState Merge NotMerge SpecNumber SpecSchema SpecRun SpecMerge SpecNegate.
Import ListNotations.
Open Scope string_scope.
Open Scope Z_scope.

(* a name the generator makes up for a property *)
Definition madeUpName (k : string) : Prop :=
  exists i, 0 <= i /\ (k = "additional_" ++ itoa i \/ k = "fallback_" ++ itoa i \/ k = "min_filler_" ++ itoa i).

Section Fragment.
Variable PE : penv.   (* how schemas are parsed *)
Variable GE : env.    (* how values are generated *)
Variable matches formatted : string -> string -> Prop.   (* what a pattern and a format mean *)
Variable refers : string -> json -> Prop.                (* what a reference accepts *)
Variable trying : bool.   (* with or without the keywords that are satisfied by trying again: not, uniqueItems *)

(* the keywords of strings: lengths, or a pattern the generator of regular expressions gets right, or a
   format its generator gets right *)
Definition textual (n : schemaNode) : Prop :=
  match sPattern n, sFormat n with
  | None, None => sMaxLength n <> Some 0
  | Some p, None => p <> "" /\ forall d s, eRegen GE p d = Ok s -> matches p s
  | None, Some f => f <> "" /\ forall str, (f = "duration" /\ (exists k, 0 <= k <= 90 /\ str = "P" ++ itoa k ++ "D")) \/
                      (In f fakerFormats /\ exists d, str = eFormat GE f d) \/ (f <> "duration" /\ ~ In f fakerFormats) -> formatted f str
  | Some _, Some _ => False
  end.

(* the keywords of a number: bounds, or bounds and a multipleOf of few binary digits *)
Definition numeric (n : schemaNode) : Prop :=
  match sMultipleOf n with
  | None => finiteKeywords n /\
      (forall e, sExclusiveMinimum n = Some e -> (Rabs (B2R e) < 128)%R) /\ (forall e, sExclusiveMaximum n = Some e -> (Rabs (B2R e) < 128)%R)
  | Some _ => stepped n
  end.
(* the keywords of an integer *)
Definition integral (n : schemaNode) : Prop :=
  keywordsWithin (IZR (2 ^ 50)) (IZR (2 ^ 40)) n /\ (forall m, sMultipleOf n = Some m -> (0 < B2R m)%R).

(* the schemas that merging makes of a list of schemas without reporting anything *)
Definition mergesTo (l : list schemaNode) (m : schemaNode) : Prop :=
  exists f s s', merge PE f l s = Ok (m, s') /\ pErrs s' = [].

Section Kids.
Variable kid : schemaNode -> Prop.   (* the sub-schemas allowed *)

(* the keywords of an array: prefixItems, items (a schema or false), minItems and maxItems; contains with
   minContains, where items is not false, and if it is a schema can be merged with contains; uniqueItems where items is a schema and stands alone, and equal
   values of that schema are written alike (0 and -0 are not), or it asks for integers, or for numbers
   without multipleOf, of which none is generated as -0 *)
Definition writtenAlike (c : schemaNode) : Prop :=
  forall a b, valid matches formatted refers c a -> valid matches formatted refers c b -> jeq a b -> marshal a = marshal b.
Definition numbersAlone (c : schemaNode) : Prop :=
  plain c /\ (ofType "integer" c \/ ofType "number" c /\ sMultipleOf c = None).
Definition sequential (n : schemaNode) : Prop :=
  sAdditionalItems n = None /\ sUnevaluatedItems n = None /\
  (sUniqueItems n = Some true -> trying = true /\ get_or (sPrefixItems n) [] = [] /\ sContains n = None /\
     exists c, itemsNode n = Some c /\ (writtenAlike c \/ numbersAlone c)) /\
  sMaxContains n = None /\
  (forall c, sContains n = Some c -> itemsFalse n = false /\
     match itemsNode n with
     | None => kid c
     | Some i => canMerge [i; c] /\ forall m, mergesTo [i; c] m -> sContains m = None /\ kid m
     end) /\
  sMaxItems n <> Some 0 /\ (forall m, sMaxItems n = Some m -> oDefaultArrayMinItems (eOpts GE) <= m) /\
  (forall d, sItems n = Some d -> get_or (itNodes d) [] = []) /\
  (itemsFalse n = true -> get_or (sMinItems n) 0 <= prefixLength n) /\
  (forall c, In c (get_or (sPrefixItems n) []) \/ itemsNode n = Some c -> kid c).

(* the names that patternProperties governs: those generated for a pattern match it, match no other pattern
   and are declared nowhere; the declared and the required ones match none; and either the required ones
   reach the minimum, or the names made up to reach it are allowed and match none *)
Definition separate (n : schemaNode) : Prop :=
  let patterns := get_or (sPatternProperties n) [] in
  let declared k := In k (get_or (sRequired n) []) \/ In k (keys (get_or (sProperties n) [])) in
  NoDup (keys patterns) /\
  (forall p d k, In p (keys patterns) -> eRegen GE p d = Ok k ->
     matches p k /\ ~ declared k /\ forall p', In p' (keys patterns) -> matches p' k -> p' = p) /\
  (forall p k, In p (keys patterns) -> declared k -> ~ matches p k) /\
  (patterns <> [] ->
     (NoDup (get_or (sRequired n) []) /\ get_or (sMinProperties n) 0 <= Z.of_nat (List.length (get_or (sRequired n) [])) /\
      oDefaultObjectMinProperties (eOpts GE) <= Z.of_nat (List.length (get_or (sRequired n) []))) \/
     (addlFalse n = false /\ forall p i, In p (keys patterns) -> 0 <= i -> ~ matches p ("min_filler_" ++ itoa i))).

(* the keywords of an object: properties, patternProperties, required, additionalProperties, minProperties,
   maxProperties *)
Definition keyed (n : schemaNode) : Prop :=
  separate n /\ NoDup (keys (get_or (sProperties n) [])) /\
  sMaxProperties n <> Some 0 /\ (forall m, sMaxProperties n = Some m -> oDefaultObjectMinProperties (eOpts GE) <= m) /\
  (forall k, In k (get_or (sRequired n) []) \/ In k (keys (get_or (sProperties n) [])) -> ~ madeUpName k) /\
  (* a required name is declared, or any value will do for it *)
  (forall k, In k (get_or (sRequired n) []) -> In k (keys (get_or (sProperties n) [])) \/ sAdditionalProperties n = None) /\
  (* without additional properties the required ones reach the minimum *)
  (addlFalse n = true -> NoDup (get_or (sRequired n) []) /\ get_or (sMinProperties n) 0 <= Z.of_nat (List.length (get_or (sRequired n) []))) /\
  (forall c, (exists k, In (k, c) (get_or (sProperties n) [])) \/ (exists p, In (p, c) (get_or (sPatternProperties n) [])) \/ addlNode n = Some c -> kid c).

(* the keywords of n that concern values of type t *)
Definition usesOnly (t : string) (n : schemaNode) : Prop :=
  In t allTypes /\ (t = "string" -> textual n) /\ (t = "number" -> numeric n) /\ (t = "integer" -> integral n) /\
  (t = "array" -> sequential n) /\ (t = "object" -> keyed n).

(* a schema that is used as it stands *)
Definition simple (n : schemaNode) : Prop :=
  (* enum and const: the values listed are valid for the rest of the node *)
  (flat n /\ exists l, sEnum n = Some l /\ l <> [] /\ forall x, In x l -> valid matches formatted refers n x) \/
  (flat n /\ sEnum n = None /\ exists x, sConst n = Some x /\ valid matches formatted refers n x) \/
  (* a type, or a list of types each of which is accepted on its own, or no type *)
  (smallSizes n /\ plain n /\ (forall t, In t (typeNames (sType n)) -> usesOnly t n) /\
   (forall x ts, sType n = Some (mkMT x (Some ts)) -> forall t, In t ts -> exists g, accepted PE (withType t n) g)).
End Kids.

(* what is left of the schema n when x is negated without reporting anything *)
Definition negatesTo (n x m : schemaNode) : Prop :=
  exists f s c s', notMerge PE f n x s = Ok ((m, c), s') /\ pErrs s = [] /\ pErrs s' = [].

(* n belongs to the fragment and is nested at most d levels deep *)
Fixpoint supported (d : nat) (n : schemaNode) : Prop :=
  match d with
  | O => False
  | S d' =>
      simple (supported d') n \/
      (* allOf: the branches and the rest of the node can be merged, and the result belongs to the fragment *)
      (sRef n = None /\ sConstraints n = None /\ exists l, sAllOf n = Some l /\ canMerge (l ++ [set_sAllOf None n])%list /\
       forall m, mergesTo (l ++ [set_sAllOf None n])%list m -> supported d' m) \/
      (* anyOf, or oneOf with one branch: every branch can be merged with the rest of the node, and the
         result belongs to the fragment *)
      (sRef n = None /\ sConstraints n = None /\ sAllOf n = None /\ sOneOf n = None /\ canMerge [n] /\ exists l, sAnyOf n = Some l /\
       forall b base, In b l -> mergesTo [n] base -> canMerge [set_sAnyOf None base; b] /\ forall m, mergesTo [set_sAnyOf None base; b] m -> supported d' m) \/
      (sRef n = None /\ sConstraints n = None /\ sAllOf n = None /\ sAnyOf n = None /\ canMerge [n] /\ exists b, sOneOf n = Some [b] /\
       forall base, mergesTo [n] base -> canMerge [set_sOneOf None base; b] /\ forall m, mergesTo [set_sOneOf None base; b] m -> supported d' m) \/
      (* not: the negated schema x is certain to be respected (decides) and leaves the other keywords in
         force (keepsKeywords), and what is left of the rest of the node belongs to the fragment *)
      (trying = true /\ sRef n = None /\ sConstraints n = None /\ sAllOf n = None /\ sAnyOf n = None /\ sOneOf n = None /\ sMergedNot n = [] /\
       exists x, sNot n = Some x /\ sRef x = None /\ sAllOf x = None /\ sNot x = None /\ sMergedNot x = [] /\
         let rest := set_sNot None (set_sMergedNot [] n) in
         canMerge [rest] /\ decides GE matches formatted n x /\
         forall n1 x1, mergesTo [rest] n1 -> mergesTo [emptyNode; x] x1 ->
           (exists k, keepsKeywords k n1 x1) /\ forall m, negatesTo n1 x1 m -> supported d' m)
  end.

(* A document with if at the root, beside keywords that are used as they stand: the schemas under then and
   else can be merged with these, the results belong to the fragment, and the validator is right about the
   condition.  The definitions belong to the fragment too. *)
Definition rightAbout (c : schemaNode) : Prop := forall v, eValid GE c v = true <-> valid matches formatted refers c v.
Definition definitions (n : schemaNode) : Prop :=
  forall k c, In (k, c) (get_or (sDefs n) []) \/ In (k, c) (get_or (sDefinitions n) []) -> exists e, supported e c.
Definition conditional (d : nat) (n : schemaNode) : Prop :=
  sRef n = None /\ sAllOf n = None /\ sAnyOf n = None /\ sOneOf n = None /\ sNot n = None /\ sMergedNot n = [] /\ sMergedIf n = [] /\ sConstraints n = None /\
  definitions n /\ simple (supported d) (withoutIf n) /\
  (exists c, sIf n = Some c /\ rightAbout c) /\
  forall b, sThen n = Some b \/ sElse n = Some b -> canMerge [withoutIf n; b] /\ forall m, mergesTo [withoutIf n; b] m -> supported d m.
(* A document with oneOf at the root: each branch can be merged with the rest, the results belong to the
   fragment, and the validator is right about each branch as merging leaves it. *)
Definition branching (d : nat) (n : schemaNode) : Prop :=
  sRef n = None /\ sAllOf n = None /\ sAnyOf n = None /\ sConstraints n = None /\ canMerge [n] /\ definitions n /\
  exists l, sOneOf n = Some l /\ (2 <= List.length l)%nat /\ forall b, In b l ->
    (forall base, mergesTo [n] base -> canMerge [set_sOneOf None base; b] /\ forall m, mergesTo [set_sOneOf None base; b] m -> supported d m) /\
    (forall m, mergesTo [b] m -> forall v, eValid GE m v = true <-> valid matches formatted refers b v).
End Fragment.
(* the name the root schema is compiled under does not look like one made up for a condition or a branch *)
Definition plainName (parsing : string) : Prop :=
  forall p i, parsing <> p ++ "_if_0" /\ parsing <> p ++ "_oneOf_" ++ itoa i.
