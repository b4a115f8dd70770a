(* generator.go: GeneratorOptions, defaults, cutoff / minimise tests and the retry budget. *)
From Coq Require Import ZArith List String Bool.
From Flocq Require Import Core BinarySingleNaN.
From Verif Require Import Base Float64 Util.
Import ListNotations.
Open Scope string_scope.
Open Scope Z_scope.

(* generator.go 16-84; the Rand source and the mutable fields (overallComplexity,
   ReferenceResolver) live in the generation state, see Gen.v *)
Record genOptions : Type := mkOpts {
  oDefaultNumberMinimum : Z;
  oDefaultNumberMaximum : Z;
  oDefaultStringMinLength : Z;
  oDefaultStringMaxLength : Z;
  oDefaultArrayMinItems : Z;
  oDefaultArrayMaxItems : Z;
  oDefaultObjectMinProperties : Z;
  oDefaultObjectMaxProperties : Z;
  oMaximumReferenceDepth : Z;
  oBypassCyclicReferenceCheck : bool;
  oSuppressFallbackValues : bool;
  oMaximumUniqueGeneratorAttempts : Z;
  oMaximumIfAttempts : Z;
  oMaximumOneOfAttempts : Z;
  oMaximumGenerationSteps : Z;
  oCutoffGenerationSteps : Z
}.

(* GeneratorOptions{}: the zero value *)
Definition zeroOptions : genOptions := mkOpts 0 0 0 0 0 0 0 0 0 false false 0 0 0 0 0.

(* generator.go 87-128 withGeneratorOptionsDefaults *)
Definition withDefaults (o : genOptions) : genOptions :=
  mkOpts
    (getInt (oDefaultNumberMinimum o) 0)
    (getInt (oDefaultNumberMaximum o) 100)
    (getInt (oDefaultStringMinLength o) 0)
    (getInt (oDefaultStringMaxLength o) 100)
    (getInt (oDefaultArrayMinItems o) 0)
    (getInt (oDefaultArrayMaxItems o) 10)
    (getInt (oDefaultObjectMinProperties o) 0)
    (getInt (oDefaultObjectMaxProperties o) 10)
    (getInt (oMaximumReferenceDepth o) 10)
    (getBool (oBypassCyclicReferenceCheck o) false)
    (getBool (oSuppressFallbackValues o) true)
    (getInt (oMaximumUniqueGeneratorAttempts o) 100)
    (getInt (oMaximumIfAttempts o) 100)
    (getInt (oMaximumOneOfAttempts o) 100)
    (getInt (oMaximumGenerationSteps o) 100)
    (getInt (oCutoffGenerationSteps o) 2000).

(* generator.go 130-132 ShouldCutoff, on complexity c *)
Definition shouldCutoff (o : genOptions) (c : Z) : bool :=
  (0 <? oCutoffGenerationSteps o) && (oCutoffGenerationSteps o <? c).

(* generator.go 134-136 ShouldMinimize *)
Definition shouldMinimize (o : genOptions) (c : Z) : bool :=
  (0 <? oMaximumGenerationSteps o) && (oMaximumGenerationSteps o <? c).

(* generator.go 144-172 ScaledRetryBudget *)
Definition scaledRetryBudget (o : genOptions) (c base : Z) : Z :=
  if base <=? 0 then 1
  else if negb (shouldMinimize o c) then base
  else if shouldCutoff o c then 1
  else
    let remaining := fofZ (oCutoffGenerationSteps o - c) in
    let window := fofZ (oCutoffGenerationSteps o - oMaximumGenerationSteps o) in
    if fleb window fzero then 1
    else
      let ratio := fdiv remaining window in
      let scaled := int_of_f64 (fmul ratio (fofZ base)) in
      if scaled <? 1 then 1 else scaled.
