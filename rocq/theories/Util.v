(* internal/util/util.go: the numeric and slice helpers. *)
From Coq Require Import ZArith List String Bool.
From Flocq Require Import Core BinarySingleNaN.
From Verif Require Import Base Float64.
Import ListNotations.
Open Scope string_scope.
Open Scope Z_scope.

(* util.go 30-38 GetInt with two arguments: the first non-zero int *)
Definition getInt (a b : Z) : Z := if a =? 0 then b else a.

(* util.go 41-49 GetFloat with two arguments *)
Definition getFloat (a b : f64) : f64 := if feqb a fzero then b else a.

(* util.go 61-69 GetPtr with two arguments *)
Definition getPtr {A} (a b : option A) : option A := match a with Some _ => a | None => b end.

(* util.go 122-128 GetBool *)
Definition getBool (v d : bool) : bool := if v then v else d.

(* util.go 131-152 MaxInt, MinInt with two arguments *)
Definition maxInt2 (a b : Z) : Z := if a <? b then b else a.
Definition minInt2 (a b : Z) : Z := if b <? a then b else a.

(* util.go 155-166, 168-179 MinFloatPtr, MaxFloatPtr for float64, two arguments *)
Definition minFloatPtr (a b : option f64) : option f64 :=
  match a, b with
  | Some x, Some y => if fltb y x then Some y else Some x
  | Some x, None => Some x
  | None, _ => b
  end.
Definition maxFloatPtr (a b : option f64) : option f64 :=
  match a, b with
  | Some x, Some y => if fltb x y then Some y else Some x
  | Some x, None => Some x
  | None, _ => b
  end.

(* the same generic functions instantiated at int *)
Definition minIntPtr (a b : option Z) : option Z :=
  match a, b with
  | Some x, Some y => if y <? x then Some y else Some x
  | Some x, None => Some x
  | None, _ => b
  end.
Definition maxIntPtr (a b : option Z) : option Z :=
  match a, b with
  | Some x, Some y => if x <? y then Some y else Some x
  | Some x, None => Some x
  | None, _ => b
  end.

(* util.go 81-95 MergeSlicePtrs *)
Definition mergeSlicePtrs {A} (a b : option (list A)) : option (list A) :=
  match (get_or a [] ++ get_or b [])%list with
  | [] => None
  | l => Some l
  end.

(* util.go 221-227 GetZeroIfNil is get_or *)

(* util.go 111-119 decimalPrecision: at most 15 rounds of the loop *)
Fixpoint decimalPrecision_loop (n : nat) (v : f64) : nat :=
  match n with
  | O => O
  | S n' => if feqb v (ffloor v) then O else S (decimalPrecision_loop n' (fmul v (fofZ 10)))
  end.
Definition decimalPrecision (v : f64) : nat := decimalPrecision_loop 15 (fabs v).

(* util.go 97-107 Round *)
Definition roundUnit (x unit : f64) : f64 :=
  let r := fmul (fround (fdiv x unit)) unit in
  if feqb unit fzero then r
  else let pow := fpow10 (decimalPrecision unit) in
       fdiv (fround (fmul r pow)) pow.

(* util.go 181-188 countDecimalPlaces: digits left after fmt.Sprintf("%f") (six decimals, correctly
   rounded, ties to even) when the trailing zeros are cut. *)
Definition div_half_even (a b : Z) : Z :=
  let q := a / b in let r := a mod b in
  if 2 * r <? b then q
  else if b <? 2 * r then q + 1
  else if Z.even q then q else q + 1.
Fixpoint strip10 (n : nat) (t : Z) : nat :=
  match n with
  | O => O
  | S n' => if t mod 10 =? 0 then strip10 n' (t / 10) else n
  end.
Definition countDecimalPlaces (f : f64) : nat :=
  match f with
  | B754_finite _ m e _ =>
      let a := Zpos m * 10 ^ 6 in
      let t := if 0 <=? e then a * 2 ^ e else div_half_even a (2 ^ (- e)) in
      strip10 6 t
  | _ => O
  end.

(* util.go 191-219 FindHcf *)
Definition findHcf (a b : option f64) : option f64 :=
  match a with
  | None => b
  | Some x =>
    if feqb x fzero then b else
    match b with
    | None => a
    | Some y =>
      if feqb y fzero then a else
      if feqb (fmod x y) fzero then a else
      if feqb (fmod y x) fzero then b else
      let scale := fpow10 (Nat.max (countDecimalPlaces x) (countDecimalPlaces y)) in
      Some (fdiv (fmul (fmul x scale) (fmul y scale)) scale)
    end
  end.
