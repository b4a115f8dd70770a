(* Properties C01-C07 and C26: random numbers, numeric schemas, retry budget.
   d is the raw draw of the random source: every statement holds for every draw. *)
From Coq Require Import ZArith Reals Lia Lra List String Bool.
From Flocq Require Import Core BinarySingleNaN.
From Verif Require Import Base Float64 Json Schema Util Rand Options Number SpecNumber.
From Verif Require Import FloatFacts NumberFacts NumberThm NumberProps NumberGrain BudgetFacts NumberRefute NumberWide NumberSharp.
Open Scope R_scope.

(* ---- C01 RandomInt ---- *)
Theorem C01_randomInt_range : forall mn mx d, (- 2 ^ 63 <= mn)%Z -> (mx < 2 ^ 63)%Z -> (mx - mn < 2 ^ 63)%Z -> (mn < mx)%Z ->
  exists v, randomInt mn mx d = Ok v /\ (mn <= v < mx)%Z.
Proof. exact randomInt_lt. Qed.
Print Assumptions C01_randomInt_range.

Theorem C01_randomInt_equal : forall mn d, randomInt mn mn d = Ok mn.
Proof. exact randomInt_eq. Qed.
Print Assumptions C01_randomInt_equal.

Theorem C01_randomInt_panics : forall mn mx d, (mx < mn)%Z -> (- 2 ^ 63 <= mx - mn)%Z ->
  exists w, randomInt mn mx d = Panic w.
Proof. exact randomInt_panic. Qed.
Print Assumptions C01_randomInt_panics.

Theorem C01_randomInt_onto : forall mn mx v, (- 2 ^ 63 <= mn)%Z -> (mx < 2 ^ 63)%Z -> (mx - mn < 2 ^ 63)%Z -> (mn <= v < mx)%Z ->
  exists d, randomInt mn mx d = Ok v.
Proof. exact randomInt_onto. Qed.
Print Assumptions C01_randomInt_onto.

Example C01_case : randomInt (-3) 4 12345 = Ok 1%Z. Proof. reflexivity. Qed.

(* ---- C02 RandomFloat ---- *)
Theorem C02_randomFloat_range : forall (mn mx : f64) d, is_finite mn = true -> is_finite mx = true -> B2R mn <= B2R mx ->
  Rabs (round radix2 (SpecFloat.fexp 53 1024) ZnearestE (B2R mx - B2R mn)) < bpow radix2 1024 ->
  is_finite (randomFloat mn mx d) = true /\ B2R mn <= B2R (randomFloat mn mx d) <= B2R mx.
Proof. exact randomFloat_range. Qed.
Print Assumptions C02_randomFloat_range.

Example C02_case : is_finite (fofZ 1) = true /\ is_finite (fofZ 3) = true /\ B2R (fofZ 1) <= B2R (fofZ 3) /\
  Rabs (round radix2 (SpecFloat.fexp 53 1024) ZnearestE (B2R (fofZ 3) - B2R (fofZ 1))) < bpow radix2 1024.
Proof. exact randomFloat_case. Qed.

(* ---- C03, C05 integers ---- *)
(* partial: the bounds are at most 2^50 and multipleOf at most 2^40 in absolute value *)
Theorem C03_integer_bounds_partial : forall n d v,
  keywordsWithin (IZR (2 ^ 50)) (IZR (2 ^ 40)) n ->
  (forall m, sMultipleOf n = Some m -> 0 < B2R m) ->
  producesNumber n true d v ->
  exists z : Z, numberValue v (IZR z) /\ okBounds n (IZR z) /\ okMultipleOf n (IZR z).
Proof. exact integer_ok. Qed.
Print Assumptions C03_integer_bounds_partial.

(* accepted integer schemas generate something for every draw: no panic *)
Theorem C03_integer_generates : forall n d, keywordsWithin (IZR (2 ^ 50)) (IZR (2 ^ 40)) n ->
  (exists p, parseNumber n true = Good p) -> exists v, producesNumber n true d v.
Proof. exact producesNumber_total. Qed.
Print Assumptions C03_integer_generates.

(* beyond the range of int64 the property is false: {"type":"integer","minimum":2^63} *)
Theorem C03_integer_bounds_refuted : exists n d v x, finiteKeywords n /\ producesNumber n true d v /\
  numberValue v x /\ ~ okMinimum n x.
Proof. exact integer_bounds_refuted. Qed.
Print Assumptions C03_integer_bounds_refuted.

(* partial in another direction: no multipleOf, but the two inclusive bounds are any numbers of the range of int64;
   exclusive bounds beside them are below 2^53 *)
Theorem C03_wide_bounds_partial : forall n d v a b, finiteKeywords n -> sMultipleOf n = None ->
  sMinimum n = Some a -> sMaximum n = Some b -> - IZR (2 ^ 63) <= B2R a -> B2R b < IZR (2 ^ 63) ->
  (forall e, sExclusiveMinimum n = Some e \/ sExclusiveMaximum n = Some e -> Rabs (B2R e) < IZR (2 ^ 53)) ->
  producesNumber n true d v ->
  exists z : Z, numberValue v (IZR z) /\ okBounds n (IZR z).
Proof. exact integer_wide. Qed.
Print Assumptions C03_wide_bounds_partial.

Theorem C03_wide_generates : forall n d a b, finiteKeywords n -> sMultipleOf n = None ->
  sMinimum n = Some a -> sMaximum n = Some b -> - IZR (2 ^ 63) <= B2R a -> B2R b < IZR (2 ^ 63) ->
  (exists p, parseNumber n true = Good p) -> exists v, producesNumber n true d v.
Proof. exact wide_total. Qed.
Print Assumptions C03_wide_generates.

Example C03_wide_case : exists a b v, finiteKeywords exWide /\ sMultipleOf exWide = None /\
  sMinimum exWide = Some a /\ sMaximum exWide = Some b /\ - IZR (2 ^ 63) <= B2R a /\ B2R b < IZR (2 ^ 63) /\
  (forall e, sExclusiveMinimum exWide = Some e \/ sExclusiveMaximum exWide = Some e -> Rabs (B2R e) < IZR (2 ^ 53)) /\
  producesNumber exWide true 1 v.
Proof. exact wide_case. Qed.

(* from 2^53 on an exclusive bound itself is generated, well inside the range of int64 *)
Theorem C03_exclusive_refuted : exists n d v x e, sMultipleOf n = None /\ sExclusiveMinimum n = Some e /\
  B2R e = IZR (2 ^ 53) /\ producesNumber n true d v /\ numberValue v x /\ ~ okExclusiveMinimum n x.
Proof. exact exclusive_int_refuted. Qed.
Print Assumptions C03_exclusive_refuted.

Theorem C05_integer_multipleOf_partial : forall n d v m,
  keywordsWithin (IZR (2 ^ 50)) (IZR (2 ^ 40)) n -> sMultipleOf n = Some m -> 0 < B2R m ->
  producesNumber n true d v ->
  exists z k : Z, numberValue v (IZR z) /\ IZR z = IZR k * B2R m /\ okBounds n (IZR z).
Proof. exact integer_multiple. Qed.
Print Assumptions C05_integer_multipleOf_partial.

Example C03_case : keywordsWithin (IZR (2 ^ 50)) (IZR (2 ^ 40)) exInt /\
  (forall m, sMultipleOf exInt = Some m -> 0 < B2R m) /\ producesNumber exInt true 7 (JInt 28).
Proof. exact exInt_ok. Qed.

(* ---- C04 numbers ---- *)
(* partial: the exclusive bounds are strict only below 128 in absolute value; above they may be attained *)
Theorem C04_number_bounds_partial : forall n d v, finiteKeywords n -> sMultipleOf n = None ->
  producesNumber n false d v ->
  exists x, numberValue v x /\ okMinimum n x /\ okMaximum n x /\
    (forall e, sExclusiveMinimum n = Some e -> Rabs (B2R e) < 128 -> B2R e < x) /\
    (forall e, sExclusiveMaximum n = Some e -> Rabs (B2R e) < 128 -> x < B2R e) /\
    (forall e, sExclusiveMinimum n = Some e -> B2R e <= x) /\
    (forall e, sExclusiveMaximum n = Some e -> x <= B2R e).
Proof. exact number_ok. Qed.
Print Assumptions C04_number_bounds_partial.

(* the accepted schema generates a value for every draw *)
Theorem C04_number_generates : forall n d, finiteKeywords n -> sMultipleOf n = None ->
  (exists p, parseNumber n false = Good p) -> exists v, producesNumber n false d v.
Proof. exact number_total. Qed.
Print Assumptions C04_number_generates.

(* {"type":"number","exclusiveMinimum":1000}: 1000 itself can be generated *)
Theorem C04_number_exclusive_refuted : exists n d v x, finiteKeywords n /\ sMultipleOf n = None /\
  producesNumber n false d v /\ numberValue v x /\ ~ okExclusiveMinimum n x.
Proof. exact number_exclusive_refuted. Qed.
Print Assumptions C04_number_exclusive_refuted.

(* and so it is for every exclusive minimum from 128 on: the bound itself comes out *)
Theorem C04_exclusive_sharp : forall n e b, sMultipleOf n = None -> sMinimum n = None -> sExclusiveMaximum n = None ->
  sExclusiveMinimum n = Some e -> sMaximum n = Some b -> is_finite e = true -> is_finite b = true ->
  128 <= B2R e -> B2R e < B2R b -> B2R b <= IZR (2 ^ 53) ->
  exists v, producesNumber n false 0 v /\ numberValue v (B2R e).
Proof. exact exclusive_generated. Qed.
Print Assumptions C04_exclusive_sharp.

Example C04_sharp_case : let n := set_sExclusiveMinimum (Some (fofZ 1000)) (set_sMaximum (Some (fofZ 2000)) emptyNode) in
  sMultipleOf n = None /\ sMinimum n = None /\ sExclusiveMaximum n = None /\
  sExclusiveMinimum n = Some (fofZ 1000) /\ sMaximum n = Some (fofZ 2000) /\
  is_finite (fofZ 1000) = true /\ is_finite (fofZ 2000) = true /\
  128 <= B2R (fofZ 1000) /\ B2R (fofZ 1000) < B2R (fofZ 2000) /\ B2R (fofZ 2000) <= IZR (2 ^ 53).
Proof. exact sharp_case. Qed.

Example C04_case : finiteKeywords exNum /\ sMultipleOf exNum = None /\ exists v, producesNumber exNum false 7 v.
Proof. exact exNum_ok. Qed.

(* ---- C06 multipleOf on numbers ---- *)
(* partial: multipleOf is at most 5000 steps of 1/2^j for a j up to 14 (0.1 is no such number, see the refutation
   below), bounds are at most 2^19 such steps and not tiny, exclusive ones below 128 *)
Theorem C06_number_multipleOf_partial : forall n m d v, stepped n -> sMultipleOf n = Some m -> producesNumber n false d v ->
  exists x, numberValue v x /\ okBounds n x /\ okMultipleOf n x.
Proof. exact number_multiple_ok. Qed.
Print Assumptions C06_number_multipleOf_partial.
Example C06_case : stepped exStep /\ sMultipleOf exStep = Some (fof 3 (-2)) /\ exists v, producesNumber exStep false 7 v.
Proof. exact exStep_ok. Qed.

(* {"type":"number","minimum":32.1,"maximum":32.2,"multipleOf":0.1} yields 32.20000000000001 *)
Theorem C06_number_multipleOf_refuted : exists n d v x, finiteKeywords n /\ producesNumber n false d v /\
  numberValue v x /\ ~ okMaximum n x.
Proof. exact number_multiple_refuted. Qed.
Print Assumptions C06_number_multipleOf_refuted.

(* ---- C07 acceptance ---- *)
(* {"type":"integer","minimum":5,"maximum":5} is rejected although 5 satisfies it *)
Theorem C07_satisfiable_refuted : exists n x msg, finiteKeywords n /\ isInteger x /\ okBounds n x /\ okMultipleOf n x /\
  parseNumber n true = Bad msg.
Proof. exact accept_refuted. Qed.
Print Assumptions C07_satisfiable_refuted.

(* {"type":"integer","minimum":10,"maximum":12,"multipleOf":5} is rejected although 10 satisfies it *)
Theorem C07_multiple_refuted : exists n x msg, finiteKeywords n /\ isInteger x /\ okBounds n x /\ okMultipleOf n x /\
  (exists y, x < y /\ isInteger y /\ okBounds n y) /\ parseNumber n true = Bad msg.
Proof. exact accept_multiple_refuted. Qed.
Print Assumptions C07_multiple_refuted.

(* partial: integer keywords with at least two satisfying integers are accepted *)
Theorem C07_integer_accepted_partial : forall n z1 z2,
  keywordsWithin (IZR (2 ^ 50)) (IZR (2 ^ 40)) n -> integerKeywords n -> (z1 < z2)%Z ->
  okBounds n (IZR z1) -> okMultipleOf n (IZR z1) -> okBounds n (IZR z2) -> okMultipleOf n (IZR z2) ->
  exists p, parseNumber n true = Good p.
Proof. exact integer_accepted. Qed.
Print Assumptions C07_integer_accepted_partial.

(* partial: number schemas without multipleOf are accepted if they have no exclusive bound and are
   satisfiable, or if they are satisfied by two values one apart *)
Theorem C07_number_accepted_partial : forall n, keywordsWithin (IZR (2 ^ 50)) 0 n -> sMultipleOf n = None ->
  ((sExclusiveMinimum n = None /\ sExclusiveMaximum n = None /\ exists x, okBounds n x) \/
   (exists x, okBounds n x /\ okBounds n (x + 1))) ->
  exists p, parseNumber n false = Good p.
Proof. exact number_accepted. Qed.
Print Assumptions C07_number_accepted_partial.

Example C07_case : keywordsWithin (IZR (2 ^ 50)) (IZR (2 ^ 40)) exInt /\ integerKeywords exInt /\
  okBounds exInt (IZR 7) /\ okMultipleOf exInt (IZR 7) /\ okBounds exInt (IZR 14) /\ okMultipleOf exInt (IZR 14).
Proof. exact exInt_two. Qed.

(* ---- C26 retry budget ---- *)
Theorem C26_budget_range : forall o c base, optSmall o -> (0 <= c <= 2 ^ 51)%Z -> (base <= 2 ^ 53)%Z ->
  (1 <= scaledRetryBudget o c base <= Z.max 1 base)%Z.
Proof. exact budget_in_range. Qed.
Print Assumptions C26_budget_range.

Theorem C26_budget_antitone : forall o c c' base, optSmall o -> (0 <= c)%Z -> (c <= c')%Z -> (c' <= 2 ^ 51)%Z -> (base <= 2 ^ 53)%Z ->
  (scaledRetryBudget o c' base <= scaledRetryBudget o c base)%Z.
Proof. exact budget_mono. Qed.
Print Assumptions C26_budget_antitone.

(* below the minimise threshold the whole budget is available *)
Theorem C26_budget_full : forall o c base, (1 <= base)%Z ->
  (oMaximumGenerationSteps o <= 0 \/ c <= oMaximumGenerationSteps o)%Z -> scaledRetryBudget o c base = base.
Proof. exact budget_full'. Qed.
Print Assumptions C26_budget_full.

(* past both thresholds exactly one attempt is left *)
Theorem C26_budget_cutoff : forall o c base, (1 <= base)%Z -> (0 < oMaximumGenerationSteps o < c)%Z ->
  (0 < oCutoffGenerationSteps o < c)%Z -> scaledRetryBudget o c base = 1%Z.
Proof. exact budget_cutoff'. Qed.
Print Assumptions C26_budget_cutoff.

Example C26_case : optSmall (withDefaults zeroOptions) /\
  scaledRetryBudget (withDefaults zeroOptions) 1050 100 = 50%Z /\ scaledRetryBudget (withDefaults zeroOptions) 2001 100 = 1%Z.
Proof. exact budget_case. Qed.
