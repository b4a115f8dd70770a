(* number.go: parsing and generating numbers, in binary64. *)
From Coq Require Import ZArith List String Bool.
From Flocq Require Import Core BinarySingleNaN.
From Verif Require Import Base Float64 Util Rand Json Schema.
Import ListNotations.
Open Scope string_scope.
Open Scope Z_scope.

(* number.go 22-36 constants.  infinitesimal = 0.1e-13 is the correctly rounded quotient 1/10^14. *)
Definition infinitesimal : f64 := fdiv (fofZ 1) (fofZ (10 ^ 14)).
Definition maxRoundFloat : f64 := fofZ (10 ^ 290).
Definition maxFloat64 : f64 := fof (2 ^ 53 - 1) 971.
Definition upperBound : f64 := fdiv maxFloat64 (fofZ 1000).
Definition lowerBound : f64 := fneg upperBound.
Definition defaultOffset : Z := 10.
#[global] Arguments infinitesimal : simpl never.
#[global] Arguments upperBound : simpl never.
#[global] Arguments lowerBound : simpl never.

(* number.go 13-19 numberGenerator; nInt is Type == "integer" *)
Record numGen : Type := mkNum { nInt : bool; nMin : f64; nMax : f64; nMul : f64 }.

(* not.go addIfNotNilFloat64 *)
Definition addIfNotNil (a : option f64) (d : f64) : option f64 :=
  match a with Some x => Some (fadd x d) | None => None end.

(* number.go 147-153 countMultiplesInRange *)
Definition countMultiplesInRange (mn mx m : f64) : Z :=
  if feqb mn fzero then int_of_f64 (ffloor (fdiv mx m))
  else wrap64 (int_of_f64 (ffloor (fdiv mx m)) - int_of_f64 (ffloor (fdiv mn m))).

(* number.go 80-88: lower and upper limit before defaults *)
Definition rawMin (mn xmn : option f64) (off : f64) : f64 :=
  get_or (maxFloatPtr mn (addIfNotNil xmn off)) fninf.
Definition rawMax (mx xmx : option f64) (off : f64) : f64 :=
  get_or (minFloatPtr mx (addIfNotNil xmx (fneg off))) finf.

(* number.go 92-100: default range around whichever bound is given *)
Definition defaultRange (mn mx offset : f64) : f64 * f64 :=
  if is_inf_neg mn && is_inf_pos mx then (fzero, offset)
  else if is_inf_neg mn then (fsub mx offset, mx)
  else if is_inf_pos mx then (mn, fadd mn offset)
  else (mn, mx).

(* number.go 102-109 clamping *)
Definition clampMin (mn : f64) : f64 := if fltb mn lowerBound then lowerBound else mn.
Definition clampMax (mx : f64) : f64 := if fltb upperBound mx then upperBound else mx.

Inductive err (A : Type) : Type := Good (a : A) | Bad (msg : string).
Arguments Good {A} a.
Arguments Bad {A} msg.

(* number.go 127-143: checks on multipleOf *)
Definition checkMultipleOf (integer : bool) (mn mx : f64) (mo : option f64) : err (f64 * f64) :=
  match mo with
  | None => Good (mn, mx)
  | Some m =>
      if fltb m fzero then Bad "multipleOf cannot be negative"
      else if negb (feqb m fzero) && fltb m infinitesimal then Bad "multipleOf must be at least 1e-14"
      else if integer && negb (feqb (ftrunc m) m) then Bad "integer type cannot have a non-integer multipleOf"
      else if countMultiplesInRange mn mx m =? 0 then Bad "minimum and maximum do not allow for any multiples of multipleOf"
      else Good (mn, mx)
  end.

(* number.go 67-145 resolveMinMaxForNode *)
Definition resolveMinMax (n : schemaNode) (integer : bool) : err (f64 * f64) :=
  let off := if integer then fofZ 1 else infinitesimal in
  let mn0 := rawMin (sMinimum n) (sExclusiveMinimum n) off in
  let mx0 := rawMax (sMaximum n) (sExclusiveMaximum n) off in
  let offset := getFloat (fmul (get_or (sMultipleOf n) fzero) (fofZ 100)) (fofZ defaultOffset) in
  let '(mn1, mx1) := defaultRange mn0 mx0 offset in
  let mn2 := clampMin mn1 in
  let mx2 := clampMax mx1 in
  if integer && feqb (ffloor mn2) (ffloor mx2) then
    Bad "minimum and maximum do not allow for any integers"
  else
    let mn3 := if integer then fceil mn2 else mn2 in
    let mx3 := if integer then ffloor mx2 else mx2 in
    if fltb mx3 mn3 then Bad "minimum cannot be greater than maximum"
    else checkMultipleOf integer mn3 mx3 (sMultipleOf n).

(* what parseNumber returns: a constant or a number generator (number.go 54-64) *)
Inductive numParsed : Type := NConst (f : f64) | NGen (g : numGen).

(* number.go 47-65 parseNumber *)
Definition parseNumber (n : schemaNode) (integer : bool) : err numParsed :=
  match resolveMinMax n integer with
  | Bad m => Bad ("error parsing number node: " ++ m)
  | Good (mn, mx) =>
      if feqb mn mx then Good (NConst mn)
      else Good (NGen (mkNum integer mn mx (get_or (sMultipleOf n) fzero)))
  end.

(* number.go 155-165 generateMultipleOf; d is the draw used by RandomInt(1, multiplesInRange) *)
Definition generateMultipleOf (mn mx m : f64) (d : Z) : res f64 :=
  let cnt := countMultiplesInRange mn mx m in
  if cnt =? 0 then Ok fzero
  else
    let lower := fmul (ffloor (fdiv mn m)) m in
    let! k := randomInt 1 cnt d in
    Ok (fadd lower (fmul (fofZ k) m)).

(* number.go 167-174 roundToInfinitesimal *)
Definition roundToInfinitesimal (f : f64) : f64 :=
  if is_inf f || fltb maxRoundFloat (fabs f) then f
  else fmul (fround (fdiv f infinitesimal)) infinitesimal.

(* number.go 179-187: the raw result before normalisation *)
Definition numberRaw (g : numGen) (d : Z) : res f64 :=
  if nInt g then
    if feqb (nMul g) fzero then Ok (fround (randomFloat (nMin g) (nMax g) d))
    else generateMultipleOf (nMin g) (nMax g) (nMul g) d
  else
    if feqb (nMul g) fzero then Ok (randomFloat (nMin g) (nMax g) d)
    else let! x := generateMultipleOf (nMin g) (nMax g) (nMul g) d in Ok (roundUnit x (nMul g)).

(* number.go 189-209: zeros are unsigned, integers become int, multiples are snapped *)
Definition numberFinish (g : numGen) (r : f64) : json :=
  if is_zero r then (if nInt g then JInt 0 else JFloat fzero)
  else if nInt g then JInt (int_of_f64 r)
  else if feqb (nMul g) fzero then JFloat r
  else JFloat (roundToInfinitesimal r).

(* number.go 176-210 Generate, as a function of its single draw *)
Definition numberGenerate (g : numGen) (d : Z) : res json :=
  let! r := numberRaw g d in Ok (numberFinish g r).

(* number.go 176-210: whether the call draws from opts.Rand at all (RandomInt(1,1) does not) *)
Definition numberDraws (g : numGen) : bool :=
  if feqb (nMul g) fzero then true
  else let cnt := countMultiplesInRange (nMin g) (nMax g) (nMul g) in
       negb (cnt =? 0) && negb (cnt =? 1).
