(* Negated schemas: what it means that a schema x under "not" leaves the other keywords of a schema n in
   force, and for which n and x that is so. *)
From Coq Require Import ZArith Reals List String Bool.
From Flocq Require Import Core BinarySingleNaN.
From Verif Require Import Base Float64 Json Schema Codec Gen SpecNumber SpecSchema.
Import ListNotations.
Open Scope string_scope.
Open Scope Z_scope.

(* the sub-schemas a of n for which x has something to say (or that are looked at although x says nothing),
   each with the part b of x that is negated there *)
Inductive meets (n x : schemaNode) : schemaNode -> schemaNode -> Prop :=
| meetProperty : forall k a b, assoc k (get_or (sProperties n) []) = Some a -> assoc k (get_or (sProperties x) []) = Some b -> meets n x a b
| meetItems : forall i j a, sItems n = Some i -> sItems x = Some j -> itNode i = Some a -> meets n x a (get_or (itNode j) emptyNode)
| meetPosition : forall i a, nth_error (get_or (sPrefixItems n) []) i = Some a -> meets n x a (nth i (get_or (sPrefixItems x) []) emptyNode)
| meetContains : forall a, sContains n = Some a -> meets n x a (get_or (sContains x) emptyNode)
| meetAdditional : forall d a, sAdditionalProperties n = Some d -> nofFalse d = false -> nofSchema d = Some a ->
    meets n x a (match sAdditionalProperties x with Some e => get_or (nofSchema e) emptyNode | None => emptyNode end).

Definition sizesOf (n : schemaNode) : list (option Z) :=
  [sMinLength n; sMaxLength n; sMinItems n; sMaxItems n; sMinContains n; sMaxContains n; sMinProperties n; sMaxProperties n].
Definition numbersOf (n : schemaNode) : list (option f64) := [sMinimum n; sMaximum n; sExclusiveMinimum n; sExclusiveMaximum n].

(* keywords of n and x side by side that leave those of n in force *)
Record compatible (n x : schemaNode) : Prop := mkCompatible {
  cpType : properType (sType n);
  (* a sub-schema with allOf or a negation of its own is not covered *)
  cpAllOf : sAllOf n = None;
  cpNot : sNot n = None;
  (* x says nothing about multiples and does not name the type integer *)
  cpMultiples : sMultipleOf x = None /\ match sType x with None => True | Some _ => properType (sType x) /\ ~ In "integer" (typeNames (sType x)) end;
  cpMultipleOf : forall q, sMultipleOf n = Some q -> is_finite q = true /\ B2R q <> 0%R;
  (* bounds of numbers: integers where integers are left, small ones where only numbers are left *)
  cpIntegers : In "integer" (typeNames (sType n)) -> forall a, In (Some a) (numbersOf n ++ numbersOf x)%list ->
    is_finite a = true /\ exists k, B2R a = IZR k /\ Z.abs k <= 2 ^ 50;
  cpNumbers : ~ In "integer" (typeNames (sType n)) \/ In "number" (typeNames (sType x)) /\ sType x <> None ->
    sExclusiveMinimum x = None /\ sExclusiveMaximum x = None /\
    forall a, In (Some a) (numbersOf n ++ numbersOf x)%list -> is_finite a = true /\ (Rabs (B2R a) <= 127)%R;
  cpSizes : forall v, In (Some v) (sizesOf n ++ sizesOf x)%list -> v < 2 ^ 31 - 12;
  (* the values of an enum were read from JSON text *)
  cpEnum : sEnum n <> Some [] /\ forall l v, sEnum n = Some l -> In v l -> exists j, decAny j = Some v;
  (* arrays *)
  cpContains : sMinContains x = None /\ sMaxContains x = None /\ sMaxContains n = None;
  cpItems : sAdditionalItems n = None /\ forall d, sItems n = Some d -> itNodes d = None;
  cpPositions : sItems n <> None -> (List.length (get_or (sPrefixItems x) []) <= List.length (get_or (sPrefixItems n) []))%nat;
  (* objects *)
  cpProperties : NoDup (keys (get_or (sProperties n) []));
  cpAdditional : sAdditionalProperties n <> None -> incl (keys (get_or (sProperties x) [])) (keys (get_or (sProperties n) [])) }.

(* the names that x requires and n does not; a value that has them is left to the check of the negation *)
Definition refusedNames (n x : schemaNode) : list string :=
  filter (fun k => negb (mem_string k (get_or (sRequired n) []))) (get_or (sRequired x) []).

(* the same at every level down to d; below the top no declared property is refused *)
Fixpoint keepsKeywords (d : nat) (n x : schemaNode) : Prop :=
  match d with
  | O => False
  | S d' => compatible n x /\
      forall a b, meets n x a b ->
        keepsKeywords d' a b /\ forall k, In k (refusedNames a b) -> ~ In k (keys (get_or (sProperties a) []))
  end.

(* ---- which negations are certain to be respected ---- *)
(* null, a boolean or a string *)
Definition scalar (w : json) : Prop := w = JNull \/ (exists b, w = JBool b) \/ exists s, w = JStr s.

(* For every type that n allows, x has a keyword that no value left of n satisfies: the generator keeps away
   from the lengths, counts, bounds and required names of x, and drops a string for which the regular
   expression or format of x holds; or x consists of a type; or x lists a few scalar values. *)
Definition decides (GE : env) (matches formatted : string -> string -> Prop) (n x : schemaNode) : Prop :=
  (exists t, x = set_sType (Some t) emptyNode /\ properType (Some t) /\ (In "integer" (typeNames (Some t)) -> In "number" (typeNames (Some t)))) \/
  (sEnum x = None /\ exists w, sConst x = Some w /\ scalar w) \/
  (sEnum n = None /\ sConst n = None /\ exists l, sEnum x = Some l /\ forall w, In w l -> scalar w) \/
  (properType (sType n) /\ forall t, In t (typeNames (sType n)) ->
     (t = "string" /\ (sMinLength x <> None \/ sMaxLength x <> None \/
        (exists p, sPattern x = Some p /\ forall s, matches p s -> eMatch GE p s = true) \/
        (exists f, sPattern x = None /\ sFormat x = Some f /\ forall s, formatted f s -> eIsFormat GE f (JStr s) = true))) \/
     (t = "array" /\ (sMinItems x <> None \/ sMaxItems x <> None)) \/
     (t = "object" /\ (sMinProperties x <> None \/ sMaxProperties x <> None \/
        exists k, In k (get_or (sRequired x) []) /\ ~ In k (get_or (sRequired n) []))) \/
     ((t = "integer" \/ t = "number") /\ exists a, In (Some a) (numbersOf x))).
