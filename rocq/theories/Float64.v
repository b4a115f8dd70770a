(* IEEE binary64 as used by Go's float64: Flocq's BinarySingleNaN with 53 bits of precision.
   Every operation rounds to nearest-even as on amd64/arm64 without fused operations. *)
From Coq Require Import ZArith Bool List.
From Flocq Require Import Core BinarySingleNaN.
Open Scope Z_scope.

Definition f64 := binary_float 53 1024.

#[global] Instance prec53 : Prec_gt_0 53 := eq_refl.
#[global] Instance emax1024 : Prec_lt_emax 53 1024 := eq_refl.

Definition fadd : f64 -> f64 -> f64 := Bplus mode_NE.
Definition fsub : f64 -> f64 -> f64 := Bminus mode_NE.
Definition fmul : f64 -> f64 -> f64 := Bmult mode_NE.
Definition fdiv : f64 -> f64 -> f64 := Bdiv mode_NE.
Definition fneg : f64 -> f64 := @Bopp 53 1024.
Definition fabs : f64 -> f64 := @Babs 53 1024.

(* Go's ==, <, <= on float64 (false on NaN) *)
Definition feqb (x y : f64) : bool := Beqb x y.
Definition fltb (x y : f64) : bool := Bltb x y.
Definition fleb (x y : f64) : bool := Bleb x y.

(* float64(z) for an integer, m * 2^e *)
Definition fof (m e : Z) : f64 := binary_normalize 53 1024 prec53 emax1024 mode_NE m e false.
Definition fofZ (z : Z) : f64 := fof z 0.

(* math.Floor, math.Ceil, math.Trunc, math.Round (half away from zero) *)
Definition ffloor : f64 -> f64 := Bnearbyint mode_DN.
Definition fceil : f64 -> f64 := Bnearbyint mode_UP.
Definition ftrunc : f64 -> f64 := Bnearbyint mode_ZR.
Definition fround : f64 -> f64 := Bnearbyint mode_NA.

Definition finf : f64 := B754_infinity false.
Definition fninf : f64 := B754_infinity true.
Definition fzero : f64 := B754_zero false.

Definition is_inf_pos (x : f64) : bool := match x with B754_infinity false => true | _ => false end.
Definition is_inf_neg (x : f64) : bool := match x with B754_infinity true => true | _ => false end.
Definition is_inf (x : f64) : bool := match x with B754_infinity _ => true | _ => false end.
Definition is_nanb (x : f64) : bool := match x with B754_nan => true | _ => false end.
Definition is_zero (x : f64) : bool := match x with B754_zero _ => true | _ => false end.

(* int64 two's complement wrap-around *)
Definition wrap64 (z : Z) : Z := ((z + 2^63) mod 2^64) - 2^63.

(* int(f): truncation; outside the int64 range (and for NaN/Inf) the Go specification leaves the
   result to the implementation; amd64 yields -2^63. *)
Definition int_of_f64 (x : f64) : Z :=
  match x with
  | B754_nan => - 2^63
  | B754_infinity _ => - 2^63
  | _ => let z := Btrunc x in
         if (- 2^63 <=? z) && (z <? 2^63) then z else - 2^63
  end.

(* math.Mod on finite operands: exact remainder with the sign of x *)
Definition fmod (x y : f64) : f64 :=
  match x, y with
  | B754_nan, _ | _, B754_nan => B754_nan
  | B754_infinity _, _ => B754_nan
  | _, B754_zero _ => B754_nan
  | _, B754_infinity _ => x
  | B754_zero _, _ => x
  | B754_finite sx mx ex _, B754_finite _ my ey _ =>
      let e := Z.min ex ey in
      let a := Zpos mx * 2 ^ (ex - e) in
      let b := Zpos my * 2 ^ (ey - e) in
      let r := a mod b in
      binary_normalize 53 1024 prec53 emax1024 mode_NE (if sx then - r else r) e sx
  end.

(* pow10 n = float64 of 10^n (exact for n <= 22) *)
Definition fpow10 (n : nat) : f64 := fofZ (10 ^ Z.of_nat n).

#[global] Arguments fof _ _ : simpl never.
#[global] Arguments fofZ _ : simpl never.
#[global] Arguments fadd _ _ : simpl never.
#[global] Arguments fsub _ _ : simpl never.
#[global] Arguments fmul _ _ : simpl never.
#[global] Arguments fdiv _ _ : simpl never.
#[global] Arguments fmod _ _ : simpl never.
#[global] Arguments ffloor _ : simpl never.
#[global] Arguments fceil _ : simpl never.
#[global] Arguments fround _ : simpl never.
#[global] Arguments ftrunc _ : simpl never.
#[global] Arguments int_of_f64 _ : simpl never.
#[global] Arguments fpow10 _ : simpl never.
#[global] Arguments feqb _ _ : simpl never.
#[global] Arguments fltb _ _ : simpl never.
#[global] Arguments fleb _ _ : simpl never.
