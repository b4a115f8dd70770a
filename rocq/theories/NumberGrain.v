(* multipleOf on numbers (number.go, util.go Round) where multipleOf is a whole number of steps of 1/2^j: the
   multiples are counted and computed exactly, including both roundings of the result. *)
From Coq Require Import ZArith Reals Lia Lra Bool List String.
From Flocq Require Import Core BinarySingleNaN.
From Verif Require Import Base Float64 Util Rand Json Schema Number SpecNumber FloatFacts NumberFacts HcfFacts NumberThm NumberProps.
Open Scope R_scope.

(* x is a / 2^j *)
Definition at_grain (j a : Z) (x : f64) : Prop := fin x /\ val x = IZR a * bpow radix2 (- j).

Section Grain.
Variable j : Z.
Hypothesis Hj : (0 <= j <= 14)%Z.
Let g := bpow radix2 (- j).

Lemma g_pos : 0 < g. Proof. apply bpow_gt_0. Qed.
Lemma g_le : g <= 1. Proof. unfold g. change 1 with (bpow radix2 0). apply bpow_le. lia. Qed.
Lemma F64_grain : forall a, (Z.abs a <= 2 ^ 53)%Z -> F64 (IZR a * g).
Proof. intros a Ha. apply F64_small; lia. Qed.
Lemma grain_ov : forall a, (Z.abs a <= 2 ^ 53)%Z -> Rabs (IZR a * g) < bpow radix2 1024.
Proof.
  intros a Ha. rewrite Rabs_mult, (Rabs_pos_eq g) by (left; apply g_pos). rewrite <- abs_IZR.
  apply Rle_lt_trans with (IZR (Z.abs a)); [|apply small_ov; lia].
  rewrite <- (Rmult_1_r (IZR (Z.abs a))) at 2. apply Rmult_le_compat_l; [apply IZR_le; lia|apply g_le].
Qed.
Lemma grain_mul : forall x y a k, fin x -> val x = IZR k -> at_grain j a y -> (Z.abs (k * a) <= 2 ^ 53)%Z -> at_grain j (k * a) (fmul x y).
Proof.
  intros x y a k Fx Vx [Fy Vy] H.
  assert (E : val x * val y = IZR (k * a) * g) by (rewrite Vx, Vy, mult_IZR; unfold g; ring).
  destruct (fmul_correct x y Fx Fy) as [V F]; rewrite ?E, rnd_id in * by (apply F64_grain; auto); [now apply grain_ov|].
  split; auto.
Qed.
Lemma grain_add : forall x y a b, at_grain j a x -> at_grain j b y -> (Z.abs (a + b) <= 2 ^ 53)%Z -> at_grain j (a + b) (fadd x y).
Proof.
  intros x y a b [Fx Vx] [Fy Vy] H.
  assert (E : val x + val y = IZR (a + b) * g) by (rewrite Vx, Vy, plus_IZR; unfold g; ring).
  destruct (fadd_correct x y Fx Fy) as [V F]; rewrite ?E, rnd_id in * by (apply F64_grain; auto); [now apply grain_ov|].
  split; auto.
Qed.
Lemma grain_sub : forall x y a b, at_grain j a x -> at_grain j b y -> (Z.abs (a - b) <= 2 ^ 53)%Z -> at_grain j (a - b) (fsub x y).
Proof.
  intros x y a b [Fx Vx] [Fy Vy] H.
  assert (E : val x - val y = IZR (a - b) * g) by (rewrite Vx, Vy, minus_IZR; unfold g; ring).
  destruct (fsub_correct x y Fx Fy) as [V F]; rewrite ?E, rnd_id in * by (apply F64_grain; auto); [now apply grain_ov|].
  split; auto.
Qed.
(* x is 0 or not tiny *)
Definition sizable (x : R) : Prop := x = 0 \/ bpow radix2 (-100) <= Rabs x.

(* the floor of the rounded quotient is the floor of the quotient *)
Lemma floor_div_float : forall x m c, fin x -> sizable (val x) -> at_grain j c m -> (1 <= c <= 2 ^ 20)%Z ->
  (Z.abs (Zfloor (val x / val m)) <= 2 ^ 30)%Z ->
  fin (ffloor (fdiv x m)) /\ val (ffloor (fdiv x m)) = IZR (Zfloor (val x / val m)).
Proof.
  intros x m c Fx Sx [Fm Vm] Hc HK. pose proof g_pos as Gp. pose proof g_le as Gl. fold g in Vm.
  assert (Cp : 0 < IZR c) by (apply IZR_lt; lia). assert (Cl : IZR c <= IZR (2 ^ 20)) by (apply IZR_le; lia).
  assert (Mp : 0 < val m) by (rewrite Vm; apply Rmult_lt_0_compat; auto).
  set (q := val x / val m) in *. set (K := Zfloor q) in *. set (k := (K + 1)%Z).
  assert (Q1 : IZR K <= q) by apply Zfloor_lb. assert (Q2 : q < IZR k) by (unfold k; rewrite plus_IZR; apply Zfloor_ub).
  assert (Kb : (Z.abs k <= 2 ^ 31)%Z) by (unfold k; lia).
  assert (Xq : val x = q * val m) by (unfold q; field; lra).
  assert (FK : F64 (IZR k)) by (apply F64_IZR; lia).
  assert (FQ : F64 (IZR k * val m)).
  { rewrite Vm, <- Rmult_assoc, <- mult_IZR. apply F64_grain. rewrite Z.abs_mul, (Z.abs_eq c) by lia. apply Z.le_trans with (2 ^ 31 * 2 ^ 20)%Z; [apply Z.mul_le_mono_nonneg; lia|vm_compute; discriminate]. }
  assert (Xlt : val x < IZR k * val m) by (rewrite Xq; apply Rmult_lt_compat_r; auto).
  assert (Fv : F64 (val x)) by apply val_format.
  assert (R1 : IZR K <= rnd q) by (apply rnd_ge; auto; apply F64_IZR; lia).
  assert (R2 : rnd q < IZR k).
  { assert (Xp : val x <= pred radix2 fexp64 (IZR k * val m)) by (apply pred_ge_gt; auto with typeclass_instances).
    destruct (Z.lt_trichotomy k 0) as [N|[N|N]].
    - (* k < 0 *)
      assert (Kn : IZR k <= -1) by (apply IZR_le; lia). assert (Qn : IZR k * val m < 0) by nra.
      assert (Sk : pred radix2 fexp64 (IZR k) = IZR k - ulp radix2 fexp64 (IZR k)).
      { unfold pred. rewrite succ_eq_pos by lra. rewrite ulp_opp. ring. }
      assert (SQ : pred radix2 fexp64 (IZR k * val m) = IZR k * val m - ulp radix2 fexp64 (IZR k * val m)).
      { unfold pred. rewrite succ_eq_pos by lra. rewrite ulp_opp. ring. }
      rewrite SQ in Xp.
      pose proof (ulp_FLT_gt radix2 (-1074) 53 (IZR k * val m)) as U. change (- (53))%Z with (-53)%Z in U. change (FLT_exp (-1074) 53) with fexp64 in U.
      rewrite (Rabs_left (IZR k * val m)) in U by lra.
      assert (U' : ulp radix2 fexp64 (IZR k) <= Rabs (IZR k) * bpow radix2 (1 - 53)).
      { apply (ulp_FLT_le radix2 (-1074) 53). rewrite (Rabs_left (IZR k)) by lra. apply Rle_trans with (bpow radix2 0); [apply bpow_le; lia|]. simpl. lra. }
      rewrite (Rabs_left (IZR k)) in U' by lra. change (1 - 53)%Z with (1 + -53)%Z in U'. rewrite bpow_plus in U'. change (bpow radix2 1) with 2 in U'.
      set (b := bpow radix2 (-53)) in *. assert (0 < b) by apply bpow_gt_0.
      set (uQ := ulp radix2 fexp64 (IZR k * val m)) in *. set (uk := ulp radix2 fexp64 (IZR k)) in *.
      apply Rle_lt_trans with (pred radix2 fexp64 (IZR k)).
      + apply round_N_le_midp; auto with typeclass_instances; [apply generic_format_pred; auto with typeclass_instances|]. rewrite succ_pred by auto with typeclass_instances. rewrite Sk.
        apply Rmult_lt_reg_r with (val m); auto. rewrite <- Xq.
        apply Rle_lt_trans with (1 := Xp). replace ((IZR k - uk + IZR k) / 2 * val m) with (IZR k * val m - uk / 2 * val m) by field.
        assert (uk / 2 * val m <= - IZR k * b * val m) by (apply Rmult_le_compat_r; lra). nra.
      + rewrite Sk. assert (0 < uk); [|lra]. unfold uk. rewrite ulp_neq_0 by lra. apply bpow_gt_0.
    - (* k = 0 *)
      rewrite N in *. assert (Xn : val x < 0) by (rewrite Rmult_0_l in Xlt; exact Xlt).
      assert (Sx' : val x <= - bpow radix2 (-100)) by (destruct Sx as [Sx|Sx]; [lra|]; rewrite Rabs_left in Sx by lra; lra).
      apply Rle_lt_trans with (- bpow radix2 (-120)); [|pose proof (bpow_gt_0 radix2 (-120)); simpl IZR; lra].
      apply rnd_le_gen; [apply generic_format_opp; rewrite <- (Rmult_1_l (bpow radix2 (-120))); apply (F64_small 1); lia|].
      apply Rmult_le_reg_r with (val m); auto. rewrite <- Xq. apply Rle_trans with (1 := Sx').
      assert (Mb : val m <= bpow radix2 20) by (rewrite Vm; change (bpow radix2 20) with (IZR (2 ^ 20)); nra).
      assert (bpow radix2 (-100) = bpow radix2 (-120) * bpow radix2 20) by (rewrite <- bpow_plus; reflexivity). pose proof (bpow_gt_0 radix2 (-120)). nra.
    - (* k > 0 *)
      assert (Kn : 1 <= IZR k) by (apply IZR_le; lia). assert (Qn : 0 < IZR k * val m) by nra.
      pose proof (pred_plus_ulp radix2 fexp64 (IZR k * val m) Qn FQ) as PQ. pose proof (pred_ge_0 radix2 fexp64 (IZR k * val m) Qn FQ) as PQ0.
      assert (Kp : 0 < IZR k) by lra.
      pose proof (pred_plus_ulp radix2 fexp64 (IZR k) Kp FK) as Pk.
      set (pQ := pred radix2 fexp64 (IZR k * val m)) in *. set (pk := pred radix2 fexp64 (IZR k)) in *.
      pose proof (ulp_FLT_gt radix2 (-1074) 53 pQ) as U. change (- (53))%Z with (-53)%Z in U. change (FLT_exp (-1074) 53) with fexp64 in U.
      rewrite (Rabs_pos_eq pQ) in U by lra.
      assert (Ph : 1 / 2 <= pk).
      { unfold pk. apply pred_ge_gt; auto with typeclass_instances; [|lra]. replace (1 / 2) with (bpow radix2 (-1)) by (simpl; lra).
        rewrite <- (Rmult_1_l (bpow radix2 (-1))). apply (F64_small 1); lia. }
      assert (U' : ulp radix2 fexp64 pk <= Rabs pk * bpow radix2 (1 - 53)).
      { apply (ulp_FLT_le radix2 (-1074) 53). rewrite (Rabs_pos_eq pk) by lra. apply Rle_trans with (bpow radix2 (-1)); [apply bpow_le; lia|]. simpl. lra. }
      rewrite (Rabs_pos_eq pk) in U' by lra. change (1 - 53)%Z with (1 + -53)%Z in U'. rewrite bpow_plus in U'. change (bpow radix2 1) with 2 in U'.
      set (b := bpow radix2 (-53)) in *. assert (B0 : 0 < b) by apply bpow_gt_0.
      set (uQ := ulp radix2 fexp64 pQ) in *. set (uk := ulp radix2 fexp64 pk) in *.
      assert (Uk : 0 < uk) by (unfold uk; rewrite ulp_neq_0 by lra; apply bpow_gt_0).
      assert (Big : uk / 2 * val m < uQ).
      { (* uQ * (1 + b) > b * Q and uk * (1 + 2 b) <= 2 b * k *)
        assert (A1 : b * (IZR k * val m) < uQ * (1 + b)) by nra.
        assert (A2 : uk * (1 + 2 * b) <= 2 * b * IZR k) by nra.
        assert (A3 : uk / 2 * val m * (1 + 2 * b) <= b * (IZR k * val m)) by nra.
        assert (A4 : uk / 2 * val m * (1 + b) < uQ * (1 + b)); [|apply Rmult_lt_reg_r in A4; lra].
        assert (0 < uk / 2 * val m) by nra. nra. }
      apply Rle_lt_trans with pk; [|lra].
      apply round_N_le_midp; auto with typeclass_instances; [apply generic_format_pred; auto with typeclass_instances|]. unfold pk at 2. rewrite succ_pred by auto with typeclass_instances.
      apply Rmult_lt_reg_r with (val m); auto. rewrite <- Xq. apply Rle_lt_trans with (1 := Xp).
      replace ((pk + IZR k) / 2 * val m) with (IZR k * val m - (IZR k - pk) / 2 * val m) by field.
      replace (IZR k - pk) with uk by lra. lra. }
  assert (Zf : Zfloor (rnd q) = K). { apply Zfloor_imp. unfold k in R2. lra. }
  destruct (fdiv_correct x m Fx) as [Vd Fd]; [lra| |].
  - fold q. apply Rle_lt_trans with (IZR (2 ^ 31)); [|apply small_ov; vm_compute; discriminate]. apply Rabs_le.
    assert (- IZR (2 ^ 31) <= IZR K) by (rewrite <- opp_IZR; apply IZR_le; lia). assert (IZR k <= IZR (2 ^ 31)) by (apply IZR_le; lia). lra.
  - fold q in Vd. destruct (ffloor_val _ Fd) as [A B]. split; auto. rewrite A, Vd, Zf. reflexivity.
Qed.

Lemma grain_count : forall mn mx m c a b, fin mn -> fin mx -> sizable (val mn) -> sizable (val mx) -> at_grain j c m -> (1 <= c <= 2 ^ 20)%Z ->
  Zfloor (val mn / val m) = a -> Zfloor (val mx / val m) = b -> (Z.abs a <= 2 ^ 30)%Z -> (Z.abs b <= 2 ^ 30)%Z ->
  countMultiplesInRange mn mx m = (b - a)%Z.
Proof.
  intros mn mx m c a b F1 F2 S1 S2 G3 Hc <- <- Ha Hb. unfold countMultiplesInRange.
  destruct (floor_div_float mx m c) as [A1 A2]; auto. destruct (floor_div_float mn m c) as [B1 B2]; auto.
  rewrite (int_of_f64_val _ _ A1 A2) by lia. rewrite (int_of_f64_val _ _ B1 B2) by lia.
  destruct (feqb mn fzero) eqn:E.
  - apply feqb_eq in E; auto; [|reflexivity]. rewrite E, val_fzero. unfold Rdiv. rewrite Rmult_0_l. rewrite (Zfloor_IZR 0). lia.
  - apply wrap64_id. lia.
Qed.

Lemma grain_multiple : forall mn mx m c a b d, fin mn -> fin mx -> sizable (val mn) -> sizable (val mx) -> at_grain j c m -> (1 <= c <= 2 ^ 20)%Z ->
  Zfloor (val mn / val m) = a -> Zfloor (val mx / val m) = b -> (Z.abs a * c <= 2 ^ 30)%Z -> (Z.abs b * c <= 2 ^ 30)%Z -> (a <= b)%Z -> (b - a <> 0)%Z ->
  exists r k, generateMultipleOf mn mx m d = Ok r /\ at_grain j (k * c) r /\ (a < k <= b)%Z.
Proof.
  intros mn mx m c a b d F1 F2 S1 S2 G3 Hc Ea Eb Ha Hb Hab Hn. unfold generateMultipleOf.
  assert (Ha' : (Z.abs a <= 2 ^ 30)%Z) by nia. assert (Hb' : (Z.abs b <= 2 ^ 30)%Z) by nia.
  rewrite (grain_count mn mx m c a b) by auto.
  destruct (Z.eqb_spec (b - a) 0); [contradiction|].
  destruct (randomInt_spec 1 (b - a) d) as (k & Hk & K1 & K2); try lia.
  rewrite Hk. cbn [bind].
  destruct (floor_div_float mn m c) as [B1 B2]; auto; [now rewrite Ea|]. rewrite Ea in B2.
  destruct (fofZ_exact k) as [C1 C2]; [lia|].
  exists (fadd (fmul (ffloor (fdiv mn m)) m) (fmul (fofZ k) m)), (a + k)%Z.
  split; [reflexivity|]. rewrite Z.mul_add_distr_r. split; [|lia].
  assert (Kc : (Z.abs (k * c) <= 2 ^ 31)%Z) by (rewrite Z.abs_mul, (Z.abs_eq c) by lia; assert ((Z.abs k <= Z.abs a + Z.abs b)%Z) by lia; nia).
  assert (Ac : (Z.abs (a * c) <= 2 ^ 30)%Z) by (rewrite Z.abs_mul, (Z.abs_eq c) by lia; lia).
  apply grain_add; [|apply grain_mul; auto; lia|lia]. apply grain_mul; auto; lia.
Qed.

(* ---------- Round(x, multipleOf) ---------- *)

Lemma nearestA_IZR : forall z, ZnearestA (IZR z) = z.
Proof. intros z. apply (Zrnd_IZR ZnearestA). Qed.

(* the number of decimals found for a / 2^i turns it into a whole number *)
Lemma precision_grain : forall n i v a, (0 <= i < Z.of_nat n)%Z -> (i <= 14)%Z -> fin v -> val v = IZR a * bpow radix2 (- i) -> (0 <= a)%Z -> (a * 5 ^ i <= 2 ^ 53)%Z ->
  exists w, (Z.of_nat (decimalPrecision_loop n v) <= i)%Z /\
    IZR a * bpow radix2 (- i) * IZR (10 ^ Z.of_nat (decimalPrecision_loop n v)) = IZR w.
Proof.
  induction n as [|n IH]; intros i v a Hi Hi14 Fv Vv Ha Hb; [lia|]. cbn [decimalPrecision_loop].
  destruct (ffloor_val v Fv) as [V1 F1]. destruct (feqb v (ffloor v)) eqn:E.
  - apply feqb_eq in E; auto. exists (Zfloor (val v)). split; [lia|]. simpl. rewrite Rmult_1_r, <- Vv, <- V1. exact E.
  - assert (Ni : (i <> 0)%Z).
    { intros ->. apply feqb_neq in E; auto. apply E. rewrite V1, Vv. simpl (bpow radix2 _). rewrite Rmult_1_r, Zfloor_IZR. reflexivity. }
    destruct (fofZ_exact 10) as [C1 C2]; [lia|].
    assert (P5 : (5 ^ i = 5 * 5 ^ (i - 1))%Z). { replace i with (Z.succ (i - 1)) at 1 by lia. rewrite Z.pow_succ_r; lia. }
    assert (P5' : (1 <= 5 ^ (i - 1))%Z) by (pose proof (Z.pow_pos_nonneg 5 (i - 1)); lia).
    assert (E5 : val v * val (fofZ 10) = IZR (5 * a) * bpow radix2 (- (i - 1))).
    { rewrite Vv, C1, mult_IZR. replace (- (i - 1))%Z with (1 + - i)%Z by lia. rewrite bpow_plus. change (bpow radix2 1) with 2. ring. }
    assert (B5' : (5 * a * 1 <= 5 * a * 5 ^ (i - 1))%Z) by (apply Z.mul_le_mono_nonneg_l; lia).
    assert (B5 : (Z.abs (5 * a) <= 2 ^ 53)%Z) by (rewrite P5 in Hb; rewrite Z.mul_assoc, (Z.mul_comm a 5) in Hb; lia).
    assert (Bi : bpow radix2 (- (i - 1)) <= 1) by (change 1 with (bpow radix2 0); apply bpow_le; lia).
    destruct (fmul_correct v (fofZ 10) Fv C2) as [V2 F2].
    { rewrite E5, rnd_id by (apply F64_small; lia). rewrite Rabs_mult, (Rabs_pos_eq (bpow _ _)) by apply bpow_ge_0. rewrite <- abs_IZR.
      apply Rle_lt_trans with (IZR (Z.abs (5 * a)) * 1); [apply Rmult_le_compat_l; auto; apply IZR_le; lia|]. rewrite Rmult_1_r. apply small_ov. lia. }
    rewrite E5, rnd_id in V2 by (apply F64_small; lia).
    destruct (IH (i - 1)%Z (fmul v (fofZ 10)) (5 * a)%Z) as (w & W1 & W2); auto; try lia.
    exists w. split; [lia|]. rewrite <- W2. rewrite Nat2Z.inj_succ, Z.pow_succ_r, !mult_IZR by lia.
    replace (- (i - 1))%Z with (1 + - i)%Z by lia. rewrite bpow_plus. change (bpow radix2 1) with 2. ring.
Qed.

Lemma pow5_14 : forall p, (0 <= p <= 14)%Z -> (1 <= 5 ^ p <= 6103515625)%Z.
Proof.
  intros p Hp. split. pose proof (Z.pow_pos_nonneg 5 p); lia. change 6103515625%Z with (5 ^ 14)%Z. apply Z.pow_le_mono_r; lia.
Qed.

Lemma round_grain : forall x m k c, at_grain j (k * c) x -> at_grain j c m -> (1 <= c <= 2 ^ 20)%Z -> (Z.abs (k * c) <= 1400000)%Z ->
  at_grain j (k * c) (roundUnit x m).
Proof.
  intros x m k c [Fx Vx] [Fm Vm] Hc Hk. unfold roundUnit. pose proof g_pos as Gp.
  assert (Cp : 0 < IZR c) by (apply IZR_lt; lia).
  assert (Mp : 0 < val m) by (rewrite Vm; fold g; apply Rmult_lt_0_compat; auto).
  assert (Ka : (Z.abs k <= 1400000)%Z) by nia.
  assert (Q : val x / val m = IZR k) by (rewrite Vx, Vm, mult_IZR; fold g; field; lra).
  destruct (fdiv_correct x m Fx) as [V1 F1]; [lra|rewrite Q, rnd_id by (apply F64_IZR; lia); rewrite <- abs_IZR; apply small_ov; lia|].
  rewrite Q, rnd_id in V1 by (apply F64_IZR; lia).
  destruct (fround_val _ F1) as [V2 F2]. rewrite V1, nearestA_IZR in V2.
  destruct (grain_mul (fround (fdiv x m)) m c k F2 V2 (conj Fm Vm)) as [F3 V3]; [lia|].
  destruct (feqb m fzero) eqn:E; [split; auto|]. set (r := fmul (fround (fdiv x m)) m) in *.
  unfold decimalPrecision. set (p := decimalPrecision_loop 15 (fabs m)).
  assert (Fa : fin (fabs m)) by (unfold fin, fabs; rewrite is_finite_Babs; exact Fm).
  assert (Va : val (fabs m) = IZR c * bpow radix2 (- j)).
  { unfold val, fabs. rewrite B2R_Babs. fold (val m). rewrite <- Vm. apply Rabs_pos_eq. lra. }
  pose proof (pow5_14 j Hj) as P5.
  assert (C5 : (c * 5 ^ j <= 2 ^ 20 * 6103515625)%Z) by (apply Z.mul_le_mono_nonneg; lia).
  destruct (precision_grain 15 j (fabs m) c) as (w & W1 & W2); auto; try lia. fold p in W1, W2. fold g in W2.
  assert (P10 : (0 < 10 ^ Z.of_nat p)%Z) by (apply Z.pow_pos_nonneg; lia).
  assert (P10b : (10 ^ Z.of_nat p <= 2 ^ 53)%Z).
  { apply Z.le_trans with (10 ^ 14)%Z; [apply Z.pow_le_mono_r; lia|]. vm_compute; discriminate. }
  destruct (fofZ_exact (10 ^ Z.of_nat p)) as [Vp Fp]; [lia|]. fold (fpow10 p) in Vp, Fp.
  assert (Pp : 0 < val (fpow10 p)) by (rewrite Vp; apply IZR_lt; lia).
  assert (E1 : val r * val (fpow10 p) = IZR (k * w)).
  { rewrite V3, Vp. rewrite !mult_IZR, <- W2. fold g. ring. }
  assert (Kw : (Z.abs (k * w) <= 2 ^ 53)%Z).
  { (* |k * c| <= 1400000 and w / c <= 5^14 *)
    apply le_IZR. rewrite abs_IZR, <- E1, Rabs_mult, (Rabs_pos_eq (val (fpow10 p))) by lra.
    rewrite V3, Rabs_mult, (Rabs_pos_eq (bpow _ _)) by apply bpow_ge_0. fold g. rewrite <- abs_IZR, Vp.
    apply Rle_trans with (IZR 1400000 * IZR 6103515625); [|rewrite <- mult_IZR; apply IZR_le; vm_compute; discriminate].
    rewrite Rmult_assoc. apply Rmult_le_compat; [apply IZR_le; lia|apply Rmult_le_pos; [lra|apply IZR_le; lia]|apply IZR_le; lia|].
    assert (H10 : IZR (10 ^ Z.of_nat p) = IZR (5 ^ Z.of_nat p) * bpow radix2 (Z.of_nat p)).
    { rewrite <- IZR_Zpower by lia. rewrite <- mult_IZR. f_equal. rewrite <- Z.pow_mul_l. reflexivity. }
    rewrite H10. pose proof (pow5_14 (Z.of_nat p)) as P5p.
    replace (g * (IZR (5 ^ Z.of_nat p) * bpow radix2 (Z.of_nat p))) with (IZR (5 ^ Z.of_nat p) * bpow radix2 (- j + Z.of_nat p)) by (rewrite bpow_plus; unfold g; ring).
    assert (bpow radix2 (- j + Z.of_nat p) <= 1) by (change 1 with (bpow radix2 0); apply bpow_le; lia).
    apply Rle_trans with (IZR (5 ^ Z.of_nat p) * 1); [apply Rmult_le_compat_l; auto; apply IZR_le; lia|]. rewrite Rmult_1_r. apply IZR_le; lia. }
  destruct (fmul_correct r (fpow10 p) F3 Fp) as [V4 F4]; [rewrite E1, rnd_id by (apply F64_IZR; lia); rewrite <- abs_IZR; apply small_ov; lia|].
  rewrite E1, rnd_id in V4 by (apply F64_IZR; lia).
  destruct (fround_val _ F4) as [V5 F5]. rewrite V4, nearestA_IZR in V5.
  assert (E2 : val (fround (fmul r (fpow10 p))) / val (fpow10 p) = IZR (k * c) * g).
  { rewrite V5, <- E1, V3. fold g. field. lra. }
  destruct (fdiv_correct (fround (fmul r (fpow10 p))) (fpow10 p) F5) as [V6 F6]; [lra|rewrite E2, rnd_id by (apply F64_grain; lia); apply grain_ov; lia|].
  rewrite E2, rnd_id in V6 by (apply F64_grain; lia). split; auto.
Qed.

(* ---------- rounding to 1e-14 ---------- *)

Lemma rnd_close_pos : forall y z, F64 y -> 0 < y -> Rabs (z - y) <= y * bpow radix2 (-56) -> rnd z = y.
Proof.
  intros y z Fy Py H. pose proof (bpow_gt_0 radix2 (-56)) as B56. apply Rabs_le_inv in H.
  assert (B54 : bpow radix2 (-53) = 8 * bpow radix2 (-56)) by (change (-53)%Z with (3 + -56)%Z; rewrite bpow_plus; reflexivity).
  assert (B1 : bpow radix2 (-53) <= 1 / 2) by (replace (1 / 2) with (/ IZR (2 ^ 1)) by (simpl; lra); change (bpow radix2 (-53)) with (/ IZR (2 ^ 53)); apply Rinv_le; [lra|apply IZR_le; vm_compute; discriminate]).
  apply Rle_antisym.
  - apply round_N_le_midp; auto with typeclass_instances. rewrite succ_eq_pos by lra.
    pose proof (ulp_FLT_gt radix2 (-1074) 53 y) as U. rewrite Rabs_pos_eq in U by lra. change (- (53))%Z with (-53)%Z in U.
    change (FLT_exp (-1074) 53) with fexp64 in U. rewrite B54 in U. nra.
  - apply round_N_ge_midp; auto with typeclass_instances.
    pose proof (pred_plus_ulp radix2 fexp64 y Py Fy) as P. pose proof (pred_ge_0 radix2 fexp64 y Py Fy) as P0. set (q := pred radix2 fexp64 y) in *.
    pose proof (ulp_FLT_gt radix2 (-1074) 53 q) as U. rewrite Rabs_pos_eq in U by lra. change (- (53))%Z with (-53)%Z in U.
    change (FLT_exp (-1074) 53) with fexp64 in U. rewrite B54 in *. nra.
Qed.
Lemma rnd_close : forall y z, F64 y -> Rabs (z - y) <= Rabs y * bpow radix2 (-56) -> rnd z = y.
Proof.
  intros y z Fy H. destruct (Rtotal_order 0 y) as [P|[<-|P]].
  - rewrite (Rabs_pos_eq y) in H by lra. now apply rnd_close_pos.
  - rewrite Rabs_R0, Rmult_0_l in H. replace z with 0; [apply rnd_0|]. apply Rabs_le_inv in H. lra.
  - rewrite (Rabs_left y) in H by lra. assert (K : rnd (- z) = - y).
    { apply rnd_close_pos; [now apply generic_format_opp|lra|]. replace (- z - - y) with (- (z - y)) by ring. now rewrite Rabs_Ropp. }
    assert (N : rnd (- z) = - rnd z) by exact (round_NE_opp radix2 fexp64 z). lra.
Qed.

Lemma inf_exact : fin infinitesimal /\ val infinitesimal = IZR 6338253001141147 * bpow radix2 (-99).
Proof. destruct (val_SF infinitesimal false 6338253001141147 (-99)) as [A B]; [vm_compute; reflexivity|]. split; auto. Qed.
(* 10^14 times the float 1e-14 is 1 up to 2^-59 *)
Lemma inf_unit : exists e, val infinitesimal * IZR (10 ^ 14) = 1 + e /\ Rabs e <= bpow radix2 (-58).
Proof.
  destruct inf_exact as [_ V]. exists (val infinitesimal * IZR (10 ^ 14) - 1). split; [ring|]. rewrite V.
  change (bpow radix2 (-99)) with (/ IZR (2 ^ 99)). change (bpow radix2 (-58)) with (/ IZR (2 ^ 58)).
  replace (IZR 6338253001141147 * / IZR (2 ^ 99) * IZR (10 ^ 14) - 1) with (IZR (6338253001141147 * 10 ^ 14 - 2 ^ 99) * / IZR (2 ^ 99)).
  2:{ rewrite minus_IZR, mult_IZR. field. apply IZR_neq. vm_compute. discriminate. }
  rewrite Rabs_mult, (Rabs_pos_eq (/ _)) by (left; apply Rinv_0_lt_compat; apply IZR_lt; vm_compute; reflexivity). rewrite <- abs_IZR.
  apply Rmult_le_reg_r with (IZR (2 ^ 99)); [apply IZR_lt; vm_compute; reflexivity|].
  rewrite Rmult_assoc, Rinv_l, Rmult_1_r by (apply IZR_neq; vm_compute; discriminate).
  change (2 ^ 99)%Z with (2 ^ 58 * 2 ^ 41)%Z. rewrite (mult_IZR (2 ^ 58)), <- Rmult_assoc, Rinv_l, Rmult_1_l by (apply IZR_neq; vm_compute; discriminate).
  apply IZR_le. vm_compute. discriminate.
Qed.

Lemma above_big : forall M, fin M -> fltb (fofZ (2 ^ 53)) M = true -> IZR (2 ^ 53) < val M.
Proof.
  intros M FM K. destruct (fofZ_exact (2 ^ 53)) as [V Fv]; [lia|]. apply (proj1 (fltb_lt _ _ Fv FM)) in K. now rewrite V in K.
Qed.
Lemma maxRound_big : fin maxRoundFloat /\ IZR (2 ^ 53) < val maxRoundFloat.
Proof.
  assert (F : fin maxRoundFloat) by (vm_compute; reflexivity).
  assert (K : fltb (fofZ (2 ^ 53)) maxRoundFloat = true) by (vm_compute; reflexivity).
  exact (conj F (above_big _ F K)).
Qed.

Lemma infinitesimal_grain : forall x a, at_grain j a x -> (Z.abs a <= 1400000)%Z -> at_grain j a (roundToInfinitesimal x).
Proof.
  intros x a [Fx Vx] Ha. unfold roundToInfinitesimal. pose proof g_pos as Gp.
  assert (I0 : is_inf x = false) by (destruct x; try reflexivity; discriminate Fx). rewrite I0. cbn [orb].
  destruct maxRound_big as [FM VM]. revert FM VM. generalize maxRoundFloat. intros big FM VM.
  assert (Fa : fin (fabs x)) by (unfold fin, fabs; rewrite is_finite_Babs; exact Fx).
  assert (Va : val (fabs x) = Rabs (val x)) by (unfold val, fabs; apply B2R_Babs).
  assert (Ba : Rabs (val x) <= IZR (1400000)).
  { rewrite Vx, Rabs_mult, (Rabs_pos_eq (bpow _ _)) by apply bpow_ge_0. fold g. rewrite <- abs_IZR. pose proof g_le.
    apply Rle_trans with (IZR (Z.abs a) * 1); [apply Rmult_le_compat_l; auto; apply IZR_le; lia|]. rewrite Rmult_1_r. apply IZR_le; lia. }
  assert (E0 : fltb big (fabs x) = false).
  { apply fltb_ge; auto. rewrite Va. apply Rle_trans with (1 := Ba). apply Rle_trans with (IZR (2 ^ 53)); [apply IZR_le; vm_compute; discriminate|lra]. }
  rewrite E0. destruct inf_exact as [Fc _]. destruct inf_unit as (e & Ec & He). revert Fc Ec. generalize infinitesimal. intros c Fc Ec.
  assert (B58 : bpow radix2 (-58) <= 1 / 2) by (replace (1 / 2) with (/ IZR (2 ^ 1)) by (simpl; lra); change (bpow radix2 (-58)) with (/ IZR (2 ^ 58)); apply Rinv_le; [lra|apply IZR_le; vm_compute; discriminate]).
  assert (B56 : bpow radix2 (-56) = 4 * bpow radix2 (-58)) by (change (-56)%Z with (2 + -58)%Z; rewrite bpow_plus; reflexivity).
  pose proof (Rabs_le_inv _ _ He) as He'.
  assert (T : 0 < IZR (10 ^ 14)) by (apply IZR_lt; vm_compute; reflexivity).
  assert (Cp : 0 < val c) by (apply Rmult_lt_reg_r with (IZR (10 ^ 14)); auto; lra).
  (* N is the whole number x * 10^14 *)
  set (N := (a * 5 ^ 14 * 2 ^ (14 - j))%Z).
  assert (P2 : IZR (2 ^ (14 - j)) = bpow radix2 (14 - j)) by (rewrite <- IZR_Zpower by lia; reflexivity).
  assert (EN : IZR N = val x * IZR (10 ^ 14)).
  { unfold N. rewrite !mult_IZR, P2, Vx. change (10 ^ 14)%Z with (5 ^ 14 * 2 ^ 14)%Z. rewrite (mult_IZR (5 ^ 14)).
    change (IZR (2 ^ 14)) with (bpow radix2 14). replace (14 - j)%Z with (- j + 14)%Z by lia. rewrite bpow_plus. ring. }
  assert (FN : F64 (IZR N)).
  { unfold N. rewrite mult_IZR, P2. apply F64_small; [|lia]. change (2 ^ 53)%Z with 9007199254740992%Z. change (5 ^ 14)%Z with 6103515625%Z. lia. }
  assert (D1 : rnd (val x / val c) = IZR N).
  { apply rnd_close; auto.
    assert (Q : val x / val c = IZR N * / (1 + e)) by (rewrite EN, <- Ec; field; lra). rewrite Q.
    replace (IZR N * / (1 + e) - IZR N) with (IZR N * - (e * / (1 + e))) by (field; lra).
    rewrite Rabs_mult, Rabs_Ropp, Rabs_mult. apply Rmult_le_compat_l; [apply Rabs_pos|].
    assert (I1 : 0 < / (1 + e) <= 2).
    { split; [apply Rinv_0_lt_compat; lra|]. replace 2 with (/ (1 / 2)) by field. apply Rinv_le; lra. }
    rewrite (Rabs_pos_eq (/ (1 + e))) by lra. rewrite B56. pose proof (Rabs_pos e). nra. }
  assert (NB : Rabs (IZR N) < bpow radix2 1024).
  { rewrite EN, Rabs_mult, (Rabs_pos_eq (IZR (10 ^ 14))) by lra. apply Rle_lt_trans with (IZR (1400000) * IZR (10 ^ 14)); [apply Rmult_le_compat_r; lra|].
    apply Rlt_trans with (bpow radix2 100); [|apply bpow_lt; lia]. change (bpow radix2 100) with (IZR (2 ^ 100)). rewrite <- mult_IZR. apply IZR_lt. vm_compute. reflexivity. }
  destruct (fdiv_correct x c Fx) as [V1 F1]; [lra|rewrite D1; exact NB|]. rewrite D1 in V1.
  destruct (fround_val _ F1) as [V2 F2]. rewrite V1, nearestA_IZR in V2.
  assert (D2 : rnd (IZR N * val c) = IZR a * g).
  { apply rnd_close; [apply F64_grain; lia|]. rewrite EN, Vx. fold g.
    replace (IZR a * g * IZR (10 ^ 14) * val c - IZR a * g) with (IZR a * g * e).
    - rewrite Rabs_mult. apply Rmult_le_compat_l; [apply Rabs_pos|]. rewrite B56. pose proof (bpow_ge_0 radix2 (-58)). lra.
    - replace (IZR a * g * IZR (10 ^ 14) * val c) with (IZR a * g * (val c * IZR (10 ^ 14))) by ring. rewrite Ec. ring. }
  destruct (fmul_correct (fround (fdiv x c)) c F2 Fc) as [V3 F3]; [rewrite V2, D2; apply grain_ov; lia|]. rewrite V2, D2 in V3. split; auto.
Qed.

(* ---------- the schema ---------- *)

Lemma grain_main : forall mn mx m c a b d, fin mn -> fin mx -> sizable (val mn) -> sizable (val mx) -> at_grain j c m -> (1 <= c <= 2 ^ 20)%Z ->
  Zfloor (val mn / val m) = a -> Zfloor (val mx / val m) = b -> (Z.abs a * c <= 1400000)%Z -> (Z.abs b * c <= 1400000)%Z -> (a <= b)%Z -> (b - a <> 0)%Z ->
  exists f k, numberGenerate (mkNum false mn mx m) d = Ok (JFloat f) /\ at_grain j (k * c) f /\ (a < k <= b)%Z.
Proof.
  intros mn mx m c a b d F1 F2 S1 S2 G3 Hc Ea Eb Ha Hb Hab Hn. pose proof g_pos as Gp.
  assert (M0 : feqb m fzero = false).
  { destruct G3 as [F3 V3]. apply feqb_neq; [exact F3|reflexivity|]. rewrite V3, val_fzero. fold g. assert (0 < IZR c) by (apply IZR_lt; lia).
    apply Rgt_not_eq. apply Rmult_lt_0_compat; auto. }
  unfold numberGenerate, numberRaw. cbn [nInt nMul nMin nMax]. rewrite M0.
  destruct (grain_multiple mn mx m c a b d) as (r & k & R1 & R2 & R3); auto; try lia. rewrite R1. cbn [bind].
  assert (Kc : (Z.abs (k * c) <= 1400000)%Z).
  { rewrite Z.abs_mul, (Z.abs_eq c) by lia. assert (Z.abs k <= Z.max (Z.abs a) (Z.abs b))%Z by lia.
    apply Z.le_trans with (Z.max (Z.abs a) (Z.abs b) * c)%Z; [apply Z.mul_le_mono_nonneg_r; lia|]. destruct (Z.max_spec (Z.abs a) (Z.abs b)) as [[_ ->]|[_ ->]]; lia. }
  assert (R4 : at_grain j (k * c) (roundUnit r m)) by (apply round_grain; auto; lia).
  unfold numberFinish. cbn [nInt nMul]. rewrite M0. destruct (is_zero (roundUnit r m)) eqn:Ez.
  - exists fzero, k. split; [reflexivity|]. split; auto. destruct R4 as [F4 V4]. apply is_zero_val in Ez; auto. split; [reflexivity|]. now rewrite <- V4, Ez.
  - exists (roundToInfinitesimal (roundUnit r m)), k. split; [reflexivity|]. split; auto. apply infinitesimal_grain; auto.
Qed.

(* a float that is 0 or at least 2^-47 is a multiple of 2^-100 *)
Lemma fine_steps : forall x, F64 x -> x = 0 \/ bpow radix2 (-47) <= Rabs x -> exists z, x = IZR z * bpow radix2 (-100).
Proof.
  intros x F [->|H]; [exists 0%Z; ring|]. exists (Ztrunc (scaled_mantissa radix2 fexp64 x) * 2 ^ (cexp radix2 fexp64 x + 100))%Z.
  assert (E : (-100 <= cexp radix2 fexp64 x)%Z).
  { unfold cexp. rewrite fexp64_FLT. unfold FLT_exp. assert (-46 <= mag radix2 x)%Z; [|lia]. apply mag_ge_bpow. exact H. }
  rewrite F at 1. unfold F2R. simpl Fnum. simpl Fexp. rewrite mult_IZR.
  assert (P : IZR (2 ^ (cexp radix2 fexp64 x + 100)) = bpow radix2 (cexp radix2 fexp64 x + 100)) by (rewrite <- IZR_Zpower by lia; reflexivity).
  rewrite P, Rmult_assoc, <- bpow_plus. f_equal. f_equal. lia.
Qed.
Lemma steps_sizable : forall z, sizable (rnd (IZR z * bpow radix2 (-100))).
Proof.
  intros z. destruct (Z.eq_dec z 0) as [->|N]; [left; rewrite Rmult_0_l; apply rnd_0|]. right. pose proof (bpow_gt_0 radix2 (-100)) as B.
  assert (FB : F64 (bpow radix2 (-100))) by (rewrite <- (Rmult_1_l (bpow radix2 (-100))); apply (F64_small 1); lia).
  destruct (Z_lt_le_dec z 0) as [L|L].
  - assert (IZR z <= -1) by (apply IZR_le; lia). assert (R : rnd (IZR z * bpow radix2 (-100)) <= - bpow radix2 (-100)) by (apply rnd_le_gen; [now apply generic_format_opp|nra]).
    rewrite Rabs_left; lra.
  - assert (1 <= IZR z) by (apply IZR_le; lia). assert (R : bpow radix2 (-100) <= rnd (IZR z * bpow radix2 (-100))) by (apply rnd_ge; auto; nra).
    rewrite Rabs_pos_eq; lra.
Qed.

(* the limits given by a bound: neither large nor tiny *)
Definition limit (x : f64) : Prop := fin x /\ Rabs (val x) <= IZR (2 ^ 19 + 1) * g /\ (val x = 0 \/ bpow radix2 (-47) <= Rabs (val x)).
Definition limit2 (x : f64) : Prop := fin x /\ Rabs (val x) <= IZR 1024289 * g /\ sizable (val x).
Lemma limit_limit2 : forall x, limit x -> limit2 x.
Proof.
  intros x (F & B & S). split; auto. split.
  - apply Rle_trans with (1 := B). apply Rmult_le_compat_r; [left; apply g_pos|]. apply IZR_le. vm_compute. discriminate.
  - destruct S as [S|S]; [left; exact S|right]. apply Rle_trans with (2 := S). apply bpow_le. lia.
Qed.
Lemma inf_small : 0 < val infinitesimal <= bpow radix2 (-46).
Proof. destruct inf_val as [_ I]. pose proof (bpow_gt_0 radix2 (-46)). lra. Qed.
Lemma limit_inclusive : forall x, boundedSteps j x -> limit x.
Proof.
  intros x (F & B & S). split; auto. assert (P : IZR (2 ^ j) = bpow radix2 j) by (rewrite <- IZR_Zpower by lia; reflexivity).
  unfold Rdiv in B. rewrite P in B. unfold val. split.
  - apply Rle_trans with (1 := B). rewrite <- bpow_opp. fold g. apply Rmult_le_compat_r; [left; apply g_pos|]. apply IZR_le. vm_compute. discriminate.
  - destruct S as [S|S]; [left; exact S|right]. apply Rle_trans with (2 := S). change (/ IZR (2 ^ 30)) with (bpow radix2 (-30)). apply bpow_le. lia.
Qed.
Lemma limit_shift : forall x o, boundedSteps j x -> fin o -> (val o = val infinitesimal \/ val o = - val infinitesimal) -> limit (fadd x o).
Proof.
  intros x o (F & B & S) Fo Vo. assert (P : IZR (2 ^ j) = bpow radix2 j) by (rewrite <- IZR_Zpower by lia; reflexivity).
  unfold Rdiv in B. rewrite P, <- bpow_opp in B. fold g in B. fold (val x) in B, S. pose proof inf_small as I. pose proof inf_big as I'. pose proof g_pos as Gp.
  assert (G46 : bpow radix2 (-46) <= g) by (unfold g; apply bpow_le; lia).
  assert (Ao : bpow radix2 (-47) < Rabs (val o) <= bpow radix2 (-46)).
  { destruct Vo as [->| ->]; [|rewrite Rabs_Ropp]; rewrite Rabs_pos_eq; lra. }
  assert (M1 : Rabs (val x + val o) <= IZR (2 ^ 19 + 1) * g).
  { apply Rle_trans with (1 := Rabs_triang _ _). rewrite plus_IZR. change (IZR 1) with 1. lra. }
  assert (M2 : Rabs (rnd (val x + val o)) <= IZR (2 ^ 19 + 1) * g) by (apply abs_rnd_le; auto; apply F64_grain; vm_compute; discriminate).
  assert (GV : Rabs (IZR (2 ^ 19 + 1) * g) < bpow radix2 1024) by (apply grain_ov; vm_compute; discriminate).
  rewrite (Rabs_pos_eq (IZR (2 ^ 19 + 1) * g)) in GV by (apply Rmult_le_pos; [apply IZR_le; vm_compute; discriminate|lra]).
  destruct (fadd_correct x o F Fo) as [V1 F1]; [lra|]. split; auto. rewrite V1. split; auto. right.
  assert (L : bpow radix2 (-47) <= Rabs (val x + val o)).
  { destruct S as [S|S].
    - rewrite S, Rplus_0_l. lra.
    - change (/ IZR (2 ^ 30)) with (bpow radix2 (-30)) in S. pose proof (Rabs_triang (val x + val o) (- val o)) as T. rewrite Rabs_Ropp in T.
      replace (val x + val o + - val o) with (val x) in T by ring.
      assert (bpow radix2 (-46) <= bpow radix2 (-31)) by (apply bpow_le; lia). assert (bpow radix2 (-30) = 2 * bpow radix2 (-31)) by (change (-30)%Z with (1 + -31)%Z; rewrite bpow_plus; reflexivity).
      assert (bpow radix2 (-47) <= bpow radix2 (-31)) by (apply bpow_le; lia). lra. }
  assert (FB : F64 (bpow radix2 (-47))) by (rewrite <- (Rmult_1_l (bpow radix2 (-47))); apply (F64_small 1); lia).
  destruct (Rle_lt_dec 0 (val x + val o)) as [L0|L0].
  - rewrite Rabs_pos_eq in L by lra. assert (bpow radix2 (-47) <= rnd (val x + val o)) by (apply rnd_ge; auto). pose proof (bpow_gt_0 radix2 (-47)). rewrite Rabs_pos_eq; lra.
  - rewrite Rabs_left in L by lra. assert (rnd (val x + val o) <= - bpow radix2 (-47)) by (apply rnd_le_gen; [now apply generic_format_opp|lra]). pose proof (bpow_gt_0 radix2 (-47)). rewrite Rabs_left; lra.
Qed.
Lemma limit_offset : forall x m c, limit x -> at_grain j c m -> (0 <= c <= 500000)%Z -> limit2 (fadd x m) /\ limit2 (fsub x m).
Proof.
  intros x m c (F & B & S) [Fm Vm] Hc. pose proof g_pos as Gp. fold g in Vm.
  destruct (fine_steps (val x) (val_format x) S) as (z & Ez).
  assert (Vm' : val m = IZR (c * 2 ^ (100 - j)) * bpow radix2 (-100)).
  { rewrite Vm, mult_IZR. assert (P : IZR (2 ^ (100 - j)) = bpow radix2 (100 - j)) by (rewrite <- IZR_Zpower by lia; reflexivity).
    rewrite P, Rmult_assoc, <- bpow_plus. unfold g. f_equal. f_equal. lia. }
  assert (Am : Rabs (val m) <= IZR 500000 * g).
  { rewrite Vm, Rabs_mult, (Rabs_pos_eq g) by lra. rewrite <- abs_IZR. apply Rmult_le_compat_r; [lra|]. apply IZR_le. lia. }
  assert (Sum : IZR (2 ^ 19 + 1) * g + IZR 500000 * g = IZR 1024289 * g) by (rewrite <- Rmult_plus_distr_r, <- plus_IZR; reflexivity).
  assert (FG : F64 (IZR 1024289 * g)) by (apply F64_grain; vm_compute; discriminate).
  assert (GV : Rabs (IZR 1024289 * g) < bpow radix2 1024) by (apply grain_ov; vm_compute; discriminate).
  rewrite (Rabs_pos_eq (IZR 1024289 * g)) in GV by (apply Rmult_le_pos; [apply IZR_le; vm_compute; discriminate|lra]).
  split.
  - assert (M2 : Rabs (rnd (val x + val m)) <= IZR 1024289 * g) by (apply abs_rnd_le; auto; apply Rle_trans with (1 := Rabs_triang _ _); lra).
    destruct (fadd_correct x m F Fm) as [V1 F1]; [lra|]. split; auto. rewrite V1. split; auto.
    rewrite Ez, Vm'. rewrite <- Rmult_plus_distr_r, <- plus_IZR. apply steps_sizable.
  - assert (M2 : Rabs (rnd (val x - val m)) <= IZR 1024289 * g).
    { apply abs_rnd_le; auto. unfold Rminus. apply Rle_trans with (1 := Rabs_triang _ _). rewrite Rabs_Ropp. lra. }
    destruct (fsub_correct x m F Fm) as [V1 F1]; [lra|]. split; auto. rewrite V1. split; auto.
    rewrite Ez, Vm'. rewrite <- Rmult_minus_distr_r, <- minus_IZR. apply steps_sizable.
Qed.

Lemma raw_limits : forall lo xlo, (forall x, lo = Some x -> boundedSteps j x) -> (forall x, xlo = Some x -> boundedSteps j x) ->
  (rawMin lo xlo infinitesimal = fninf \/ limit (rawMin lo xlo infinitesimal)) /\ (rawMax lo xlo infinitesimal = finf \/ limit (rawMax lo xlo infinitesimal)).
Proof.
  intros lo xlo H1 H2. destruct inf_exact as [Fc _].
  assert (Fn : fin (fneg infinitesimal)) by (unfold fin, fneg; rewrite is_finite_Bopp; exact Fc).
  assert (Vn : val (fneg infinitesimal) = - val infinitesimal) by apply B2R_Bopp.
  split.
  - destruct (rawMin_cases lo xlo infinitesimal) as [E|[(a & E1 & E)|(a & E1 & E)]]; [left; exact E|right; rewrite E; apply limit_inclusive; auto|].
    right. rewrite E. apply limit_shift; auto.
  - destruct (rawMax_cases lo xlo infinitesimal) as [E|[(a & E1 & E)|(a & E1 & E)]]; [left; exact E|right; rewrite E; apply limit_inclusive; auto|].
    right. rewrite E. apply limit_shift; auto.
Qed.

Lemma floor_steps : forall x m c, limit2 x -> at_grain j c m -> (1 <= c <= 5000)%Z -> (Z.abs (Zfloor (val x / val m)) * c <= 1400000)%Z.
Proof.
  intros x m c (F & B & _) [_ Vm] Hc. fold g in Vm. pose proof g_pos as Gp. assert (Cp : 0 < IZR c) by (apply IZR_lt; lia).
  set (K := Zfloor (val x / val m)). assert (Mp : 0 < val m) by (rewrite Vm; apply Rmult_lt_0_compat; auto).
  assert (Q1 : IZR K <= val x / val m) by apply Zfloor_lb. assert (Q2 : val x / val m < IZR K + 1) by apply Zfloor_ub.
  apply Rabs_le_inv in B.
  assert (A1 : IZR K * IZR c <= IZR 1024289).
  { apply Rmult_le_reg_r with g; auto. rewrite Rmult_assoc, <- Vm. apply Rle_trans with (val x / val m * val m); [apply Rmult_le_compat_r; lra|].
    replace (val x / val m * val m) with (val x) by (field; lra). lra. }
  assert (A2 : - IZR 1024289 <= (IZR K + 1) * IZR c).
  { apply Rmult_le_reg_r with g; auto. rewrite Rmult_assoc, <- Vm. apply Rle_trans with (val x / val m * val m); [|apply Rmult_le_compat_r; lra].
    replace (val x / val m * val m) with (val x) by (field; lra). lra. }
  rewrite <- mult_IZR in A1. apply le_IZR in A1. rewrite <- opp_IZR, <- (plus_IZR K 1), <- mult_IZR in A2. apply le_IZR in A2.
  rewrite <- (Z.abs_eq c) at 1 by lia. rewrite <- Z.abs_mul. lia.
Qed.

Lemma grain_step : forall x, multipleSteps j x -> exists c, at_grain j c x /\ (1 <= c <= 5000)%Z.
Proof.
  intros x [F (a & A1 & A2)]. exists a. split; auto. split; auto. unfold val. rewrite A2. assert (P : IZR (2 ^ j) = bpow radix2 j) by (rewrite <- IZR_Zpower by lia; reflexivity). rewrite P, bpow_opp. reflexivity.
Qed.

Lemma resolve_grain : forall n m mn mx, stepKeywords j n -> sMultipleOf n = Some m -> resolveMinMax n false = Good (mn, mx) ->
  exists c, at_grain j c m /\ (1 <= c <= 5000)%Z /\ limit2 mn /\ limit2 mx /\ val mn <= val mx /\ (Zfloor (val mx / val m) - Zfloor (val mn / val m) <> 0)%Z.
Proof.
  intros n m mn mx (Smn & Smx & Sxn & Sxx & Sm) Em H. pose proof g_pos as Gp.
  destruct (grain_step _ (Sm m Em)) as (c & Gc & Bc).
  unfold resolveMinMax in H. cbn [andb] in H. rewrite Em in H. cbn [get_or] in H.
  destruct (fofZ_exact 100) as [V100 F100]; [lia|].
  assert (G100 : at_grain j (100 * c) (fmul m (fofZ 100))).
  { assert (E : val m * val (fofZ 100) = IZR (100 * c) * g) by (destruct Gc as [_ Vc]; rewrite Vc, V100, mult_IZR; fold g; ring).
    destruct Gc as [Fc Vc]. destruct (fmul_correct m (fofZ 100) Fc F100) as [V F]; rewrite ?E, rnd_id in * by (apply F64_grain; lia); [apply grain_ov; lia|]. split; auto. }
  assert (Off : getFloat (fmul m (fofZ 100)) (fofZ defaultOffset) = fmul m (fofZ 100)).
  { unfold getFloat. destruct G100 as [F V]. assert (feqb (fmul m (fofZ 100)) fzero = false) as ->; [|reflexivity].
    apply feqb_neq; [exact F|reflexivity|]. rewrite V, val_fzero. fold g. assert (0 < IZR (100 * c)) by (apply IZR_lt; lia). apply Rgt_not_eq. apply Rmult_lt_0_compat; auto. }
  rewrite Off in H.
  destruct (raw_limits (sMinimum n) (sExclusiveMinimum n)) as [Lmn _]; [exact Smn|intros x E; exact (proj1 (Sxn x E))|].
  destruct (raw_limits (sMaximum n) (sExclusiveMaximum n)) as [_ Lmx]; [exact Smx|intros x E; exact (proj1 (Sxx x E))|].
  set (r1 := rawMin (sMinimum n) (sExclusiveMinimum n) infinitesimal) in *. set (r2 := rawMax (sMaximum n) (sExclusiveMaximum n) infinitesimal) in *.
  assert (Main : limit2 (fst (defaultRange r1 r2 (fmul m (fofZ 100)))) /\ limit2 (snd (defaultRange r1 r2 (fmul m (fofZ 100))))).
  { assert (NI : forall x, limit x -> is_inf_neg x = false /\ is_inf_pos x = false) by (intros x [F _]; destruct x as [|[]| |]; try discriminate F; split; reflexivity).
    assert (L0 : limit fzero).
    { split; [reflexivity|]. rewrite val_fzero, Rabs_R0. split; [apply Rmult_le_pos; [apply IZR_le; vm_compute; discriminate|lra]|left; reflexivity]. }
    assert (L100 : limit2 (fmul m (fofZ 100))).
    { destruct G100 as [F V]. fold g in V. split; auto. split.
      - rewrite V, Rabs_mult, (Rabs_pos_eq g) by lra. rewrite <- abs_IZR. apply Rmult_le_compat_r; [lra|]. apply IZR_le. lia.
      - right. rewrite V, Rabs_mult, (Rabs_pos_eq g) by lra. rewrite <- abs_IZR. assert (1 <= IZR (Z.abs (100 * c))) by (apply IZR_le; lia).
        apply Rle_trans with g; [unfold g; apply bpow_le; lia|]. nra. }
    unfold defaultRange. destruct Lmn as [E1|L1]; destruct Lmx as [E2|L2].
    - rewrite E1, E2. cbn [is_inf_neg is_inf_pos fninf finf andb fst snd]. split; auto. now apply limit_limit2.
    - rewrite E1. destruct (NI _ L2) as [_ ->]. cbn [is_inf_neg fninf andb fst snd]. split; [|now apply limit_limit2]. apply (limit_offset r2 _ (100 * c)%Z); auto. lia.
    - rewrite E2. destruct (NI _ L1) as [-> _]. cbn [is_inf_pos finf andb fst snd]. split; [now apply limit_limit2|]. apply (limit_offset r1 _ (100 * c)%Z); auto. lia.
    - destruct (NI _ L1) as [-> _]. destruct (NI _ L2) as [_ ->]. cbn [andb fst snd]. split; now apply limit_limit2. }
  destruct (defaultRange r1 r2 (fmul m (fofZ 100))) as [mn1 mx1]. cbn [fst snd] in Main. destruct Main as [L1 L2].
  assert (Mg : forall x, limit2 x -> mag_ok 1024289 x).
  { intros x (F & B & _). split; auto. apply Rle_trans with (1 := B). pose proof g_le. rewrite <- (Rmult_1_r (IZR 1024289)) at 2. apply Rmult_le_compat_l; auto. apply IZR_le. lia. }
  destruct (clamp_mag 1024289 mn1) as [C1 _]; [lia|auto|]. destruct (clamp_mag 1024289 mx1) as [_ C2]; [lia|auto|].
  rewrite C1, C2 in H. destruct (fltb mx1 mn1) eqn:Lt; [discriminate H|].
  destruct (check_same _ _ _ _ _ _ H) as [-> ->].
  exists c. split; [exact Gc|]. split; [exact Bc|]. split; [exact L1|]. split; [exact L2|].
  pose proof (floor_steps _ _ _ L1 Gc Bc) as K1. pose proof (floor_steps _ _ _ L2 Gc Bc) as K2.
  destruct L1 as (Fa & Ba & Sa). destruct L2 as (Fb & Bb & Sb).
  split; [apply fltb_ge in Lt; auto|].
  unfold checkMultipleOf in H. destruct (fltb m fzero); [discriminate H|]. destruct (_ && fltb m _); [discriminate H|]. cbn [andb] in H.
  rewrite (grain_count mn1 mx1 m c _ _ Fa Fb Sa Sb Gc ltac:(lia) eq_refl eq_refl) in H by nia. intros Z0. rewrite Z0 in H. discriminate H.
Qed.

End Grain.

(* C06 *)
Lemma number_multiple_ok : forall n m d v, stepped n -> sMultipleOf n = Some m -> producesNumber n false d v ->
  exists x, numberValue v x /\ okBounds n x /\ okMultipleOf n x.
Proof.
  intros n m d v (j & Hj & HS) Em HP. unfold producesNumber in HP.
  destruct (parseNumber n false) as [p|] eqn:E; [|contradiction].
  destruct (parseNumber_inv _ _ _ E) as (mn & mx & HR & HC).
  destruct (resolve_grain j Hj n m mn mx HS Em HR) as (c & Gc & Bc & L1 & L2 & Hab & Hn).
  pose proof (floor_steps j _ _ _ L1 Gc Bc) as K1. pose proof (floor_steps j _ _ _ L2 Gc Bc) as K2.
  destruct L1 as (Fa & _ & Sa). destruct L2 as (Fb & _ & Sb).
  assert (HF : numFinite n).
  { destruct HS as (S1 & S2 & S3 & S4 & S5). unfold numFinite.
    split; [destruct (sMinimum n) as [x|]; [exact (proj1 (S1 x eq_refl))|exact Logic.I]|]. split; [destruct (sMaximum n) as [x|]; [exact (proj1 (S2 x eq_refl))|exact Logic.I]|].
    split; [destruct (sExclusiveMinimum n) as [x|]; [exact (proj1 (proj1 (S3 x eq_refl)))|exact Logic.I]|].
    split; [destruct (sExclusiveMaximum n) as [x|]; [exact (proj1 (proj1 (S4 x eq_refl)))|exact Logic.I]|].
    destruct (sMultipleOf n) as [x|]; [exact (proj1 (S5 x eq_refl))|exact Logic.I]. }
  destruct (resolve_spec _ _ _ _ HF HR) as (_ & _ & _ & _ & _ & _ & S1 & S2 & S3 & S4 & _).
  change (excl_off false) with infinitesimal in S3, S4.
  assert (Gp : 0 < bpow radix2 (- j)) by apply bpow_gt_0. assert (Cp : 0 < IZR c) by (apply IZR_lt; lia).
  assert (Mp : 0 < val m) by (destruct Gc as [_ Vc]; rewrite Vc; apply Rmult_lt_0_compat; auto).
  assert (Mono : (Zfloor (val mn / val m) <= Zfloor (val mx / val m))%Z) by (apply Zfloor_le; apply Rmult_le_compat_r; [left; now apply Rinv_0_lt_compat|exact Hab]).
  destruct HC as [[Eq ->]|[Eq ->]].
  - exfalso. apply feqb_eq in Eq; auto. rewrite Eq in Hn. lia.
  - rewrite Em in HP. cbn [get_or] in HP.
    destruct (grain_main j Hj mn mx m c _ _ d Fa Fb Sa Sb Gc ltac:(lia) eq_refl eq_refl K1 K2 Mono Hn) as (f & k & G1 & [Ff Vf] & G3). rewrite G1 in HP.
    assert (v = JFloat f) as -> by congruence. exists (B2R f). split; [split; [exact Ff|reflexivity]|].
    assert (Vm : val f = IZR k * val m) by (destruct Gc as [_ Vc]; rewrite Vf, Vc, mult_IZR; ring).
    assert (Lo : val mn < val f).
    { rewrite Vm. apply Rlt_le_trans with ((IZR (Zfloor (val mn / val m)) + 1) * val m).
      - replace (val mn) with (val mn / val m * val m) at 1 by (field; lra). apply Rmult_lt_compat_r; auto. apply Zfloor_ub.
      - apply Rmult_le_compat_r; [lra|]. rewrite <- (plus_IZR _ 1). apply IZR_le. lia. }
    assert (Hi : val f <= val mx).
    { rewrite Vm. apply Rle_trans with (IZR (Zfloor (val mx / val m)) * val m).
      - apply Rmult_le_compat_r; [lra|]. apply IZR_le. lia.
      - replace (val mx) with (val mx / val m * val m) at 2 by (field; lra). apply Rmult_le_compat_r; [lra|]. apply Zfloor_lb. }
    destruct HS as (_ & _ & X1 & X2 & _). split.
    + repeat split; intros y Hy.
      * specialize (S1 y Hy). unfold val in *. lra.
      * specialize (S2 y Hy). unfold val in *. lra.
      * specialize (S3 y Hy). destruct (X1 y Hy) as [[Fy _] By]. pose proof (excl_num y Fy By). unfold val in *. lra.
      * specialize (S4 y Hy). destruct (X2 y Hy) as [[Fy _] By]. pose proof (excl_num y Fy By). unfold val in *. lra.
    + intros m' Em'. rewrite Em in Em'. assert (m' = m) as -> by (exact (eq_sym (f_equal (fun o => get_or o m) Em'))). exists k. exact Vm.
Qed.
