(* Facts about binary64 arithmetic used by the number proofs (real-number semantics via Flocq). *)
From Coq Require Import ZArith Reals Lia Lra Bool.
From Flocq Require Import Core BinarySingleNaN Plus_error.
From Verif Require Import Base Float64 Rand.
Open Scope R_scope.

Notation fexp64 := (SpecFloat.fexp 53 1024).
Notation rnd := (round radix2 fexp64 ZnearestE).
Notation F64 := (generic_format radix2 fexp64).

Definition fin (x : f64) : Prop := is_finite x = true.
Definition val (x : f64) : R := B2R x.

#[global] Instance vexp64 : Valid_exp fexp64 := fexp_correct 53 1024 prec53.
#[global] Instance mexp64 : Monotone_exp fexp64 := fexp_monotone 53 1024.

Lemma fexp64_FLT : forall e, fexp64 e = FLT_exp (-1074) 53 e.
Proof. intros. reflexivity. Qed.

Lemma val_format : forall x : f64, F64 (val x).
Proof. intros. apply generic_format_B2R. Qed.

Lemma rnd_le : forall x y, x <= y -> rnd x <= rnd y.
Proof. intros. apply round_le; auto with typeclass_instances. Qed.

Lemma rnd_id : forall x, F64 x -> rnd x = x.
Proof. intros. apply round_generic; auto with typeclass_instances. Qed.

Lemma rnd_0 : rnd 0 = 0.
Proof. apply round_0; auto with typeclass_instances. Qed.

Lemma rnd_ge : forall x y, F64 x -> x <= y -> x <= rnd y.
Proof. intros. apply round_ge_generic; auto with typeclass_instances. Qed.

Lemma rnd_le_gen : forall x y, F64 y -> x <= y -> rnd x <= y.
Proof. intros. apply round_le_generic; auto with typeclass_instances. Qed.

Lemma fadd_correct : forall x y, fin x -> fin y -> Rabs (rnd (val x + val y)) < bpow radix2 1024 ->
  val (fadd x y) = rnd (val x + val y) /\ fin (fadd x y).
Proof.
  intros x y Hx Hy H. pose proof (Bplus_correct 53 1024 prec53 emax1024 mode_NE x y Hx Hy) as C.
  rewrite Rlt_bool_true in C by exact H. destruct C as (A & B & _). split; auto.
Qed.

Lemma fsub_correct : forall x y, fin x -> fin y -> Rabs (rnd (val x - val y)) < bpow radix2 1024 ->
  val (fsub x y) = rnd (val x - val y) /\ fin (fsub x y).
Proof.
  intros x y Hx Hy H. pose proof (Bminus_correct 53 1024 prec53 emax1024 mode_NE x y Hx Hy) as C.
  rewrite Rlt_bool_true in C by exact H. destruct C as (A & B & _). split; auto.
Qed.

Lemma fmul_correct : forall x y, fin x -> fin y -> Rabs (rnd (val x * val y)) < bpow radix2 1024 ->
  val (fmul x y) = rnd (val x * val y) /\ fin (fmul x y).
Proof.
  intros x y Hx Hy H. pose proof (Bmult_correct 53 1024 prec53 emax1024 mode_NE x y) as C.
  rewrite Rlt_bool_true in C by exact H. destruct C as (A & B & _). split; auto.
  unfold fin in *. unfold fmul. rewrite B, Hx, Hy. reflexivity.
Qed.

Lemma fdiv_correct : forall x y, fin x -> val y <> 0 -> Rabs (rnd (val x / val y)) < bpow radix2 1024 ->
  val (fdiv x y) = rnd (val x / val y) /\ fin (fdiv x y).
Proof.
  intros x y Hx Hy H. pose proof (Bdiv_correct 53 1024 prec53 emax1024 mode_NE x y Hy) as C.
  rewrite Rlt_bool_true in C by exact H. destruct C as (A & B & _). split; auto.
  unfold fin in *. unfold fdiv. rewrite B, Hx. reflexivity.
Qed.

Lemma fofZ_correct : forall z, Rabs (rnd (IZR z)) < bpow radix2 1024 -> val (fofZ z) = rnd (IZR z) /\ fin (fofZ z).
Proof.
  intros z H. pose proof (binary_normalize_correct 53 1024 prec53 emax1024 mode_NE z 0 false) as C.
  cbv zeta in C. unfold F2R in C. simpl Fexp in C. simpl Fnum in C. rewrite Rmult_1_r in C.
  rewrite Rlt_bool_true in C by exact H. destruct C as (A & B & _). split; auto.
Qed.

Lemma F64_IZR : forall z, (Z.abs z <= 2 ^ 53)%Z -> F64 (IZR z).
Proof.
  intros z Hz.
  destruct (Z.eq_dec (Z.abs z) (2 ^ 53)) as [E|E].
  - assert (D : IZR z = bpow radix2 53 \/ IZR z = - bpow radix2 53).
    { change (bpow radix2 53) with (IZR (2 ^ 53)). rewrite <- opp_IZR.
      destruct (Z.abs_spec z) as [[? K]|[? K]]; [left|right]; f_equal; lia. }
    assert (Fb : F64 (bpow radix2 53)).
    { apply generic_format_bpow. rewrite fexp64_FLT. unfold FLT_exp. lia. }
    destruct D as [-> | ->]; auto. now apply generic_format_opp.
  - apply (generic_format_FLT radix2 (-1074) 53). exists (Float radix2 z 0).
    + unfold F2R; simpl. ring.
    + simpl. change (Z.pow_pos 2 53) with (2 ^ 53)%Z. lia.
    + simpl. lia.
Qed.

Lemma fofZ_exact : forall z, (Z.abs z <= 2 ^ 53)%Z -> val (fofZ z) = IZR z /\ fin (fofZ z).
Proof.
  intros z Hz. pose proof (F64_IZR z Hz) as HF.
  rewrite <- (rnd_id _ HF). apply fofZ_correct. rewrite rnd_id by auto.
  rewrite <- abs_IZR. apply Rle_lt_trans with (IZR (2 ^ 53)). now apply IZR_le.
  change (IZR (2 ^ 53)) with (bpow radix2 53). apply bpow_lt. lia.
Qed.

Lemma fltb_lt : forall x y, fin x -> fin y -> (fltb x y = true <-> val x < val y).
Proof.
  intros. unfold fltb. rewrite Bltb_correct by auto. split; intros.
  - now apply (Rlt_bool_true_iff) in H1 || (destruct (Rlt_bool_spec (B2R x) (B2R y)); auto; discriminate).
  - now apply Rlt_bool_true.
Qed.

Lemma fleb_le : forall x y, fin x -> fin y -> (fleb x y = true <-> val x <= val y).
Proof.
  intros. unfold fleb. rewrite Bleb_correct by auto. split; intros.
  - destruct (Rle_bool_spec (B2R x) (B2R y)); auto; discriminate.
  - now apply Rle_bool_true.
Qed.

Lemma feqb_eq : forall x y, fin x -> fin y -> (feqb x y = true <-> val x = val y).
Proof.
  intros. unfold feqb. rewrite Beqb_correct by auto. split; intros.
  - destruct (Req_bool_spec (B2R x) (B2R y)); auto; discriminate.
  - now apply Req_bool_true.
Qed.

Lemma fltb_ge : forall x y, fin x -> fin y -> (fltb x y = false <-> val y <= val x).
Proof.
  intros. split; intros.
  - apply Rnot_lt_le. intro. apply fltb_lt in H2; auto. congruence.
  - destruct (fltb x y) eqn:E; auto. apply fltb_lt in E; auto. lra.
Qed.

Lemma feqb_neq : forall x y, fin x -> fin y -> (feqb x y = false <-> val x <> val y).
Proof.
  intros. split; intros.
  - intro E. apply feqb_eq in E; auto; congruence.
  - destruct (feqb x y) eqn:E; auto. apply feqb_eq in E; auto. contradiction.
Qed.

(* --- math/rand.Float64 --- *)

Lemma val_2p63 : val (fofZ (2 ^ 63)) = bpow radix2 63 /\ fin (fofZ (2 ^ 63)).
Proof.
  assert (HF : F64 (IZR (2 ^ 63))).
  { change (IZR (2 ^ 63)) with (bpow radix2 63). apply generic_format_bpow. rewrite fexp64_FLT. unfold FLT_exp. lia. }
  change (bpow radix2 63) with (IZR (2 ^ 63)).
  rewrite <- (rnd_id _ HF) at 1. apply fofZ_correct. rewrite rnd_id by auto.
  change (IZR (2 ^ 63)) with (bpow radix2 63). rewrite Rabs_pos_eq by apply bpow_ge_0. apply bpow_lt. lia.
Qed.

Lemma F64_max63 : F64 (IZR (2 ^ 63 - 1024)).
Proof.
  apply (generic_format_FLT radix2 (-1074) 53). exists (Float radix2 (2 ^ 53 - 1) 10).
  - unfold F2R; simpl. rewrite <- mult_IZR. f_equal.
  - simpl. lia.
  - simpl. lia.
Qed.

Lemma rnd_63 : rnd (IZR (2 ^ 63 - 513)) = IZR (2 ^ 63 - 1024).
Proof.
  assert (E : fofZ (2 ^ 63 - 513) = fofZ (2 ^ 63 - 1024)) by (apply B2SF_inj; vm_compute; reflexivity).
  assert (B : forall z, (0 <= z <= 2 ^ 63)%Z -> Rabs (rnd (IZR z)) < bpow radix2 1024).
  { intros z Hz. rewrite Rabs_pos_eq.
    - apply Rle_lt_trans with (bpow radix2 63).
      + apply rnd_le_gen. apply generic_format_bpow. rewrite fexp64_FLT; unfold FLT_exp; lia.
        change (bpow radix2 63) with (IZR (2 ^ 63)). apply IZR_le; lia.
      + apply bpow_lt; lia.
    - rewrite <- rnd_0. apply rnd_le. apply IZR_le; lia. }
  destruct (fofZ_correct (2 ^ 63 - 513)) as [A _]. apply B; lia.
  destruct (fofZ_correct (2 ^ 63 - 1024)) as [C _]. apply B; lia.
  rewrite <- A, E, C. apply rnd_id. apply F64_max63.
Qed.

Lemma rfloat_range : forall d, fin (rfloat d) /\ 0 <= val (rfloat d) <= 1 - bpow radix2 (-53).
Proof.
  intros d. unfold rfloat. set (k := (d mod (2 ^ 63 - 512))%Z).
  assert (Hk : (0 <= k <= 2 ^ 63 - 513)%Z).
  { pose proof (Z.mod_pos_bound d (2 ^ 63 - 512)). unfold k. lia. }
  assert (R1 : 0 <= rnd (IZR k) <= IZR (2 ^ 63 - 1024)).
  { split.
    - rewrite <- rnd_0. apply rnd_le. apply IZR_le; lia.
    - rewrite <- rnd_63. apply rnd_le. apply IZR_le; lia. }
  destruct (fofZ_correct k) as [A B].
  { rewrite Rabs_pos_eq by tauto. apply Rle_lt_trans with (1 := proj2 R1).
    apply Rlt_trans with (bpow radix2 63).
    change (bpow radix2 63) with (IZR (2 ^ 63)). apply IZR_lt; lia. apply bpow_lt; lia. }
  destruct val_2p63 as [C D].
  assert (R2 : 0 <= val (fofZ k) / val (fofZ (2 ^ 63)) <= 1 - bpow radix2 (-53)).
  { rewrite A, C. unfold Rdiv. rewrite <- bpow_opp. split.
    - apply Rmult_le_pos. tauto. apply bpow_ge_0.
    - apply Rle_trans with (IZR (2 ^ 63 - 1024) * bpow radix2 (-63)).
      apply Rmult_le_compat_r. apply bpow_ge_0. tauto.
      rewrite minus_IZR. change (IZR (2 ^ 63)) with (bpow radix2 63). change (IZR 1024) with (bpow radix2 10).
      rewrite Rmult_minus_distr_r, <- !bpow_plus. change (63 + -63)%Z with 0%Z. change (10 + -63)%Z with (-53)%Z.
      change (bpow radix2 0) with 1. lra. }
  assert (F1 : F64 (1 - bpow radix2 (-53))).
  { apply (generic_format_FLT radix2 (-1074) 53). exists (Float radix2 (2 ^ 53 - 1) (-53)).
    - unfold F2R, Fnum, Fexp. change (bpow radix2 (-53)) with (/ IZR (2 ^ 53)).
      replace (2 ^ 53 - 1)%Z with (2 ^ 53 + - (1))%Z by lia. rewrite plus_IZR, opp_IZR. field. apply IZR_neq. lia.
    - simpl. lia.
    - simpl. lia. }
  assert (R3 : 0 <= rnd (val (fofZ k) / val (fofZ (2 ^ 63))) <= 1 - bpow radix2 (-53)).
  { split. rewrite <- rnd_0. apply rnd_le. tauto. apply rnd_le_gen; tauto. }
  destruct (fdiv_correct (fofZ k) (fofZ (2 ^ 63))) as [E G]; auto.
  - rewrite C. apply Rgt_not_eq. apply bpow_gt_0.
  - rewrite Rabs_pos_eq by tauto. apply Rle_lt_trans with 1.
    + pose proof (bpow_ge_0 radix2 (-53)). lra.
    + change 1 with (bpow radix2 0). apply bpow_lt; lia.
  - split; auto. rewrite E. exact R3.
Qed.

(* The heart of RandomFloat: u * fl(y - x), rounded, never exceeds y - x when u <= 1 - 2^-53. *)
Lemma scaled_diff : forall x y u, F64 x -> F64 y -> x <= y -> 0 <= u <= 1 - bpow radix2 (-53) ->
  0 <= rnd (u * rnd (y - x)) <= y - x.
Proof.
  intros x y u Hx Hy Hxy Hu.
  set (D := rnd (y - x)).
  assert (HD : 0 <= D). { unfold D. rewrite <- rnd_0. apply rnd_le. lra. }
  assert (Hpos : 0 < bpow radix2 (-53)) by apply bpow_gt_0.
  split.
  { rewrite <- rnd_0. apply rnd_le. apply Rmult_le_pos; lra. }
  destruct (Rle_dec D (y - x)) as [L|L].
  { apply Rle_trans with (2 := L). apply rnd_le_gen.
    - unfold D. apply generic_format_round; auto with typeclass_instances.
    - rewrite <- (Rmult_1_l D) at 2. apply Rmult_le_compat_r; auto. lra. }
  apply Rnot_le_lt in L.
  assert (FD : F64 D). { unfold D. apply generic_format_round; auto with typeclass_instances. }
  assert (NF : ~ F64 (y - x)).
  { intro K. unfold D in L. rewrite rnd_id in L by auto. lra. }
  (* y - x is not tiny *)
  assert (Big : bpow radix2 (-1021) < y - x).
  { apply Rnot_le_lt. intro K. apply NF. unfold Rminus.
    apply (FLT_format_plus_small radix2 (-1074) 53); auto.
    - now apply generic_format_opp.
    - change (53 + -1074)%Z with (-1021)%Z. rewrite Rabs_pos_eq; lra. }
  assert (DU : D = round radix2 fexp64 Zceil (y - x)).
  { destruct (round_DN_or_UP radix2 fexp64 ZnearestE (y - x)) as [K|K]; auto.
    unfold D in L. rewrite K in L.
    pose proof (round_DN_pt radix2 fexp64 (y - x)) as (_ & K2 & _). lra. }
  assert (PD : pred radix2 fexp64 D <= y - x).
  { rewrite DU. rewrite pred_UP_eq_DN; auto with typeclass_instances.
    apply (round_DN_pt radix2 fexp64 (y - x)). }
  apply Rle_trans with (2 := PD).
  assert (DP : 0 < D) by lra.
  (* (1 - 2^-53) D is at most the midpoint of pred D and D *)
  assert (HuD : u * D <= D - bpow radix2 (-53) * D).
  { replace (D - bpow radix2 (-53) * D) with ((1 - bpow radix2 (-53)) * D) by ring.
    apply Rmult_le_compat_r; lra. }
  assert (Ee : exists e : Z, e = mag radix2 D) by eauto. destruct Ee as [e Ee].
  assert (He : (-1020 <= e)%Z).
  { rewrite Ee. apply mag_ge_bpow. change (-1020 - 1)%Z with (-1021)%Z. rewrite Rabs_pos_eq; lra. }
  assert (ML : bpow radix2 (e - 1) <= D).
  { pose proof (bpow_mag_le radix2 D). rewrite <- Ee, Rabs_pos_eq in H by lra. apply H. lra. }
  assert (Fe : fexp64 e = (e - 53)%Z). { rewrite fexp64_FLT. unfold FLT_exp. lia. }
  assert (SP : succ radix2 fexp64 (pred radix2 fexp64 D) = D).
  { apply succ_pred; auto with typeclass_instances. }
  destruct (Req_dec D (bpow radix2 (e - 1))) as [E|E].
  - (* power of two: pred D = (1 - 2^-53) D exactly *)
    assert (P2 : pred radix2 fexp64 D = D - bpow radix2 (-53) * D).
    { rewrite E at 1. rewrite pred_bpow.
      replace (fexp64 (e - 1)) with (e - 54)%Z by (rewrite fexp64_FLT; unfold FLT_exp; lia).
      rewrite E. rewrite <- bpow_plus. replace (-53 + (e - 1))%Z with (e - 54)%Z by lia. reflexivity. }
    apply rnd_le_gen; [apply generic_format_pred; auto with typeclass_instances | lra].
  - assert (LT : bpow radix2 (e - 1) < D) by lra.
    assert (P2 : pred radix2 fexp64 D = D - bpow radix2 (e - 53)).
    { rewrite pred_eq_pos by lra. unfold pred_pos. rewrite <- Ee. rewrite Req_bool_false by lra.
      unfold ulp. rewrite Req_bool_false by lra. unfold cexp. rewrite <- Ee. now rewrite Fe. }
    apply round_N_le_midp; auto with typeclass_instances.
    + apply generic_format_pred; auto with typeclass_instances.
    + rewrite SP, P2.
      assert (H54 : bpow radix2 (-53) * bpow radix2 (e - 1) < bpow radix2 (-53) * D).
      { apply Rmult_lt_compat_l; auto. }
      rewrite <- bpow_plus in H54. replace (-53 + (e - 1))%Z with (e - 54)%Z in H54 by lia.
      assert (Hh : bpow radix2 (e - 53) = 2 * bpow radix2 (e - 54)).
      { replace (e - 53)%Z with (1 + (e - 54))%Z by lia. rewrite bpow_plus. reflexivity. }
      lra.
Qed.

(* RandomFloat stays inside the closed interval *)
Lemma randomFloat_range : forall mn mx d, fin mn -> fin mx -> val mn <= val mx ->
  Rabs (rnd (val mx - val mn)) < bpow radix2 1024 ->
  fin (randomFloat mn mx d) /\ val mn <= val (randomFloat mn mx d) <= val mx.
Proof.
  intros mn mx d Hn Hx Hle Hov. unfold randomFloat.
  destruct (rfloat_range d) as [Fu Ru].
  destruct (fsub_correct mx mn Hx Hn Hov) as [VD FD].
  pose proof (scaled_diff (val mn) (val mx) (val (rfloat d)) (val_format _) (val_format _) Hle Ru) as SD.
  assert (Hov' : 0 <= rnd (val mx - val mn)). { rewrite <- rnd_0. apply rnd_le. lra. }
  rewrite Rabs_pos_eq in Hov by auto.
  assert (UD : rnd (val (rfloat d) * rnd (val mx - val mn)) <= rnd (val mx - val mn)).
  { apply rnd_le_gen. apply generic_format_round; auto with typeclass_instances.
    rewrite <- (Rmult_1_l (rnd (val mx - val mn))) at 2. apply Rmult_le_compat_r; auto.
    pose proof (bpow_ge_0 radix2 (-53)). lra. }
  destruct (fmul_correct (rfloat d) (fsub mx mn) Fu FD) as [VP FP].
  { rewrite VD. rewrite Rabs_pos_eq by tauto. lra. }
  rewrite VD in VP.
  assert (RS : val mn <= rnd (val (fmul (rfloat d) (fsub mx mn)) + val mn) <= val mx).
  { rewrite VP. split.
    - apply rnd_ge. apply val_format. lra.
    - apply rnd_le_gen. apply val_format. lra. }
  destruct (fadd_correct (fmul (rfloat d) (fsub mx mn)) mn FP Hn) as [VR FR].
  - apply Rle_lt_trans with (Rmax (Rabs (val mn)) (Rabs (val mx))).
    + unfold Rabs, Rmax. repeat destruct Rcase_abs; repeat destruct Rle_dec; lra.
    + apply Rmax_lub_lt; apply abs_B2R_lt_emax.
  - split; auto. rewrite VR. exact RS.
Qed.
