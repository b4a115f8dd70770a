(* Specification of the numeric keywords of JSON Schema, over the real numbers.  Nothing here mentions
   the algorithms of the program: only the keywords of the schema and the value of a JSON number. *)
From Coq Require Import ZArith Reals List String Bool.
From Flocq Require Import Core BinarySingleNaN.
From Verif Require Import Float64 Json Schema.
Open Scope R_scope.

(* the mathematical value of a JSON number *)
Definition numberValue (v : json) (x : R) : Prop :=
  match v with
  | JInt z => x = IZR z
  | JFloat f => is_finite f = true /\ x = B2R f
  | _ => False
  end.

Definition isInteger (x : R) : Prop := exists z : Z, x = IZR z.

Definition okMinimum (n : schemaNode) (x : R) : Prop := forall a, sMinimum n = Some a -> B2R a <= x.
Definition okMaximum (n : schemaNode) (x : R) : Prop := forall a, sMaximum n = Some a -> x <= B2R a.
Definition okExclusiveMinimum (n : schemaNode) (x : R) : Prop := forall a, sExclusiveMinimum n = Some a -> B2R a < x.
Definition okExclusiveMaximum (n : schemaNode) (x : R) : Prop := forall a, sExclusiveMaximum n = Some a -> x < B2R a.
(* x is k times multipleOf for an integer k *)
Definition okMultipleOf (n : schemaNode) (x : R) : Prop :=
  forall m, sMultipleOf n = Some m -> exists k : Z, x = IZR k * B2R m.

(* the four bounds together *)
Definition okBounds (n : schemaNode) (x : R) : Prop :=
  okMinimum n x /\ okMaximum n x /\ okExclusiveMinimum n x /\ okExclusiveMaximum n x.

(* a schema as decoded from JSON text has finite numbers *)
Definition finiteKeywords (n : schemaNode) : Prop :=
  let f o := match o with Some x => is_finite (x : f64) = true | None => True end in
  f (sMinimum n) /\ f (sMaximum n) /\ f (sExclusiveMinimum n) /\ f (sExclusiveMaximum n) /\ f (sMultipleOf n).

(* finite keywords whose bounds are at most B and whose multipleOf is at most M in absolute value *)
Definition keywordsWithin (B M : R) (n : schemaNode) : Prop :=
  let f b o := match o with Some x => is_finite (x : f64) = true /\ Rabs (B2R x) <= b | None => True end in
  f B (sMinimum n) /\ f B (sMaximum n) /\ f B (sExclusiveMinimum n) /\ f B (sExclusiveMaximum n) /\ f M (sMultipleOf n).

(* all bounds are integers and multipleOf, if present, is a positive integer *)
Definition integerKeywords (n : schemaNode) : Prop :=
  let f o := match o with Some x => isInteger (B2R (x : f64)) | None => True end in
  f (sMinimum n) /\ f (sMaximum n) /\ f (sExclusiveMinimum n) /\ f (sExclusiveMaximum n) /\ f (sMultipleOf n) /\
  match sMultipleOf n with Some m => 0 < B2R m | None => True end.

(* m is a positive number of steps of 1/2^j, at most 5000 of them *)
Definition multipleSteps (j : Z) (m : f64) : Prop := is_finite m = true /\ exists c : Z, (1 <= c <= 5000)%Z /\ B2R m = IZR c / IZR (2 ^ j).
(* x is at most 2^19 steps of 1/2^j away from 0, and 0 or at least 2^-30 *)
Definition boundedSteps (j : Z) (x : f64) : Prop :=
  is_finite x = true /\ Rabs (B2R x) <= IZR (2 ^ 19) / IZR (2 ^ j) /\ (B2R x = 0 \/ / IZR (2 ^ 30) <= Rabs (B2R x)).
(* multipleOf is such a number of steps, the bounds are within reach of it, and exclusive ones below 128 *)
Definition stepKeywords (j : Z) (n : schemaNode) : Prop :=
  (forall x, sMinimum n = Some x -> boundedSteps j x) /\ (forall x, sMaximum n = Some x -> boundedSteps j x) /\
  (forall x, sExclusiveMinimum n = Some x -> boundedSteps j x /\ Rabs (B2R x) < 128) /\
  (forall x, sExclusiveMaximum n = Some x -> boundedSteps j x /\ Rabs (B2R x) < 128) /\
  (forall m, sMultipleOf n = Some m -> multipleSteps j m).
Definition stepped (n : schemaNode) : Prop := exists j, (0 <= j <= 14)%Z /\ stepKeywords j n.
