(* Which numbers can come out: every integer within integer bounds, and which multiples. *)
From Coq Require Import ZArith Reals Lia Lra List String Bool.
From Flocq Require Import Core BinarySingleNaN.
From Verif Require Import Base Float64 Json Schema Util Rand Options Number FloatFacts NumberFacts NumberThm SpecNumber NumberProps.
Open Scope R_scope.

Lemma rnd_err : forall x k, (-1000 <= k)%Z -> Rabs x <= bpow radix2 k -> Rabs (rnd x - x) <= bpow radix2 (k - 53).
Proof.
  intros x k Hk Hx. eapply Rle_trans; [apply error_le_half_ulp; auto with typeclass_instances|].
  apply Rle_trans with (/ 2 * ulp radix2 fexp64 (bpow radix2 k)).
  - apply Rmult_le_compat_l; [lra|]. apply ulp_le; auto with typeclass_instances. rewrite (Rabs_pos_eq (bpow radix2 k)) by apply bpow_ge_0. exact Hx.
  - rewrite ulp_bpow, fexp64_FLT. unfold FLT_exp. rewrite Z.max_l by lia.
    replace (k + 1 - 53)%Z with (k - 53 + 1)%Z by lia. rewrite bpow_plus_1. simpl (IZR radix2). lra.
Qed.

Lemma rfloat_near : forall d, (0 <= d < 2 ^ 63 - 512)%Z -> Rabs (val (rfloat d) - IZR d / IZR (2 ^ 63)) <= bpow radix2 (-52).
Proof.
  intros d Hd. unfold rfloat. rewrite Z.mod_small by lia.
  assert (P63 : IZR (2 ^ 63) = bpow radix2 63) by reflexivity.
  assert (Bd : Rabs (IZR d) <= bpow radix2 63).
  { rewrite <- P63, <- abs_IZR. apply IZR_le. lia. }
  pose proof (rnd_err (IZR d) 63 ltac:(lia) Bd) as E1.
  assert (R1 : 0 <= rnd (IZR d) <= bpow radix2 63).
  { split. rewrite <- rnd_0. apply rnd_le. apply IZR_le; lia. apply rnd_le_gen.
    apply generic_format_bpow. vm_compute. discriminate. rewrite <- P63. apply IZR_le; lia. }
  assert (T : bpow radix2 63 < bpow radix2 1024) by (apply bpow_lt; lia).
  destruct (fofZ_correct d) as [A B]. { rewrite Rabs_pos_eq by tauto. lra. }
  destruct val_2p63 as [V63 F63].
  assert (P : 0 < bpow radix2 63) by apply bpow_gt_0.
  assert (Q : 0 <= rnd (IZR d) / bpow radix2 63 <= 1).
  { split. apply Rmult_le_pos; [tauto|]. left. now apply Rinv_0_lt_compat.
    apply Rmult_le_reg_r with (bpow radix2 63); auto. unfold Rdiv. rewrite Rmult_assoc, Rinv_l by lra. lra. }
  assert (E2 : Rabs (rnd (rnd (IZR d) / bpow radix2 63) - rnd (IZR d) / bpow radix2 63) <= bpow radix2 (0 - 53)).
  { apply rnd_err. lia. rewrite Rabs_pos_eq by tauto. simpl (bpow radix2 0). lra. }
  destruct (fdiv_correct (fofZ d) (fofZ (2 ^ 63)) B) as [C _].
  { rewrite V63. lra. }
  { rewrite A, V63. apply Rle_lt_trans with (bpow radix2 0 + bpow radix2 (0 - 53)).
    - replace (rnd (rnd (IZR d) / bpow radix2 63)) with (rnd (IZR d) / bpow radix2 63 + (rnd (rnd (IZR d) / bpow radix2 63) - rnd (IZR d) / bpow radix2 63)) by ring.
      eapply Rle_trans; [apply Rabs_triang|]. apply Rplus_le_compat; auto. rewrite Rabs_pos_eq by tauto. simpl (bpow radix2 0). lra.
    - apply Rlt_trans with (bpow radix2 1). simpl (0 - 53)%Z. assert (bpow radix2 (-53) < bpow radix2 0) by (apply bpow_lt; lia). simpl (bpow radix2 0) in *. simpl (bpow radix2 1). lra. apply bpow_lt; lia. }
  rewrite C, A, V63, P63.
  replace (rnd (rnd (IZR d) / bpow radix2 63) - IZR d / bpow radix2 63) with
    ((rnd (rnd (IZR d) / bpow radix2 63) - rnd (IZR d) / bpow radix2 63) + (rnd (IZR d) - IZR d) * / bpow radix2 63) by (unfold Rdiv; ring).
  eapply Rle_trans; [apply Rabs_triang|].
  assert (E3 : Rabs ((rnd (IZR d) - IZR d) * / bpow radix2 63) <= bpow radix2 (-53)).
  { rewrite Rabs_mult, (Rabs_pos_eq (/ bpow radix2 63)) by (left; now apply Rinv_0_lt_compat).
    rewrite <- bpow_opp. apply Rle_trans with (bpow radix2 (63 - 53) * bpow radix2 (- (63))).
    apply Rmult_le_compat_r; auto. apply bpow_ge_0. rewrite <- bpow_plus. right. reflexivity. }
  replace (bpow radix2 (-52)) with (bpow radix2 (0 - 53) + bpow radix2 (-53)). lra.
  simpl (0 - 53)%Z. change (-52)%Z with (-53 + 1)%Z. rewrite bpow_plus_1. simpl (IZR radix2). ring.
Qed.

Lemma hits : forall mn mx a b z, fin mn -> fin mx -> val mn = IZR a -> val mx = IZR b -> (Z.abs a <= 2 ^ 47)%Z -> (Z.abs b <= 2 ^ 47)%Z ->
  (a < b)%Z -> (a <= z <= b)%Z -> exists d, fin (randomFloat mn mx d) /\ Rabs (val (randomFloat mn mx d) - IZR z) < / 2.
Proof.
  intros mn mx a b z Fn Fx Vn Vx Ha Hb Hab Hz.
  set (D := (b - a)%Z). assert (HD : (1 <= D <= 2 ^ 48)%Z) by (unfold D; lia).
  set (q := ((z - a) * 2 ^ 63 / D)%Z). set (d := Z.min q (2 ^ 63 - 513)).
  assert (Q1 : (D * q <= (z - a) * 2 ^ 63 < D * q + D)%Z).
  { unfold q. pose proof (Z.div_mod ((z - a) * 2 ^ 63) D ltac:(lia)). pose proof (Z.mod_pos_bound ((z - a) * 2 ^ 63) D ltac:(lia)). lia. }
  assert (Q0 : (0 <= q)%Z) by (unfold q; apply Z.div_pos; lia).
  assert (Hd : (0 <= d < 2 ^ 63 - 512)%Z) by (unfold d; lia).
  assert (Q2 : ((z - a) * 2 ^ 63 - D * 514 <= D * d <= (z - a) * 2 ^ 63)%Z).
  { unfold d. destruct (Z.min_spec q (2 ^ 63 - 513)) as [[L ->]|[L ->]].
    - lia.
    - assert (D * (2 ^ 63 - 513) <= D * q)%Z by (apply Z.mul_le_mono_nonneg_l; lia).
      assert ((z - a) * 2 ^ 63 <= D * 2 ^ 63)%Z by (apply Z.mul_le_mono_nonneg_r; lia). lia. }
  exists d. destruct (randomFloat_range mn mx d Fn Fx) as [FR _].
  { rewrite Vn, Vx. apply IZR_le; lia. }
  { apply Rle_lt_trans with (IZR (2 ^ 48)). apply abs_rnd_le. apply F64_IZR; lia. rewrite Vn, Vx, <- minus_IZR, <- abs_IZR. apply IZR_le; lia. apply small_ov; lia. }
  split; auto.
  destruct (rfloat_range d) as [Fu [U0 U1]]. pose proof (rfloat_near d Hd) as UN.
  destruct (sum_int mx mn b a Fx Fn Vx Vn) as (_ & _ & FD & VD). lia. fold D in VD.
  set (u := val (rfloat d)) in *.
  assert (U2 : u <= 1) by (pose proof (bpow_ge_0 radix2 (-53)); lra).
  assert (DR : 1 <= IZR D <= bpow radix2 48).
  { split. apply IZR_le; lia. change (bpow radix2 48) with (IZR (2 ^ 48)). apply IZR_le; lia. }
  assert (UD : 0 <= u * IZR D <= bpow radix2 48).
  { split. apply Rmult_le_pos; lra. apply Rle_trans with (1 * IZR D). apply Rmult_le_compat_r; lra. lra. }
  pose proof (rnd_err (u * IZR D) 48 ltac:(lia) ltac:(rewrite Rabs_pos_eq; tauto)) as E1.
  assert (PR : 0 <= rnd (u * IZR D) <= bpow radix2 48).
  { split. rewrite <- rnd_0. apply rnd_le; tauto. apply rnd_le_gen. apply generic_format_bpow. vm_compute. discriminate. tauto. }
  assert (T : bpow radix2 48 < bpow radix2 1024) by (apply bpow_lt; lia).
  destruct (fmul_correct (rfloat d) (fsub mx mn) Fu FD) as [VM FM].
  { fold u. rewrite VD, Rabs_pos_eq by tauto. lra. }
  fold u in VM. rewrite VD in VM.
  assert (BA : Rabs (IZR a) <= bpow radix2 48).
  { rewrite <- abs_IZR. change (bpow radix2 48) with (IZR (2 ^ 48)). apply IZR_le; lia. }
  assert (BS : Rabs (rnd (u * IZR D) + IZR a) <= bpow radix2 49).
  { eapply Rle_trans; [apply Rabs_triang|]. rewrite (Rabs_pos_eq (rnd _)) by tauto. change 49%Z with (48 + 1)%Z. rewrite bpow_plus_1. simpl (IZR radix2). lra. }
  pose proof (rnd_err _ 49 ltac:(lia) BS) as E2.
  destruct (fadd_correct (fmul (rfloat d) (fsub mx mn)) mn FM Fn) as [VS _].
  { rewrite VM, Vn. apply Rle_lt_trans with (bpow radix2 49). apply abs_rnd_le; auto. apply generic_format_bpow. vm_compute. discriminate. apply bpow_lt; lia. }
  unfold randomFloat. rewrite VS, VM, Vn.
  assert (E3 : Rabs (u * IZR D - IZR d / IZR (2 ^ 63) * IZR D) <= bpow radix2 (-4)).
  { rewrite <- Rmult_minus_distr_r, Rabs_mult, (Rabs_pos_eq (IZR D)) by lra.
    apply Rle_trans with (bpow radix2 (-52) * bpow radix2 48). apply Rmult_le_compat; try lra; apply Rabs_pos. rewrite <- bpow_plus. right. reflexivity. }
  assert (P63 : 0 < IZR (2 ^ 63)) by (apply IZR_lt; lia).
  assert (E4 : Rabs (IZR d / IZR (2 ^ 63) * IZR D - IZR (z - a)) <= bpow radix2 (-5)).
  { replace (IZR d / IZR (2 ^ 63) * IZR D - IZR (z - a)) with (IZR (D * d - (z - a) * 2 ^ 63) * / IZR (2 ^ 63)).
    2:{ rewrite minus_IZR, !mult_IZR. field. lra. }
    rewrite Rabs_mult, (Rabs_pos_eq (/ IZR (2 ^ 63))) by (left; now apply Rinv_0_lt_compat).
    rewrite <- abs_IZR. change (bpow radix2 (-5)) with (/ IZR 32).
    apply Rmult_le_reg_r with (IZR (2 ^ 63)); auto. rewrite Rmult_assoc, Rinv_l, Rmult_1_r by lra.
    replace (/ IZR 32 * IZR (2 ^ 63)) with (IZR (2 ^ 58)) by (change (2 ^ 63)%Z with (2 ^ 58 * 32)%Z; rewrite mult_IZR; field). apply IZR_le. lia. }
  rewrite minus_IZR in E4. simpl (48 - 53)%Z in E1. simpl (49 - 53)%Z in E2.
  assert (N4 : bpow radix2 (-4) = / 16) by reflexivity. assert (N5 : bpow radix2 (-5) = / 32) by reflexivity.
  rewrite N4 in *. rewrite N5 in *.
  apply Rabs_le_inv in E1, E2, E3, E4. apply Rabs_def1; lra.
Qed.

(* the lower and upper limit, for integer keywords of at most K in absolute value *)
Lemma rawMin_lim : forall K mn xmn z, (0 <= K <= 2 ^ 50)%Z -> obound (IZR K) mn -> obound (IZR K) xmn -> oint mn -> oint xmn ->
  (forall a, mn = Some a -> B2R a <= IZR z) -> (forall e, xmn = Some e -> B2R e < IZR z) -> (mn <> None \/ xmn <> None) ->
  exists A, fin (rawMin mn xmn (fofZ 1)) /\ val (rawMin mn xmn (fofZ 1)) = IZR A /\ (Z.abs A <= K + 1)%Z /\ (A <= z)%Z.
Proof.
  intros K mn xmn z HK H1 H2 I1 I2 V1 V2 HN. destruct (fofZ_exact 1) as [O1 O2]. lia.
  assert (E : forall e, xmn = Some e -> exists A, fin (fadd e (fofZ 1)) /\ val (fadd e (fofZ 1)) = IZR A /\ (Z.abs A <= K + 1)%Z /\ (A <= z)%Z).
  { intros e ->. destruct I2 as [k J]. destruct H2 as [F B]. specialize (V2 e eq_refl). unfold val in *. rewrite J in *.
    rewrite <- abs_IZR in B. apply le_IZR in B. apply lt_IZR in V2.
    destruct (fadd_mag e (fofZ 1) (K + 1)) as (A1 & A2 & A3); auto. lia.
    { unfold val. rewrite J, O1, <- !abs_IZR, <- plus_IZR. apply IZR_le. lia. }
    exists (k + 1)%Z. unfold val in *. split; auto. rewrite A3, J, O1, <- plus_IZR. split. apply rnd_id. apply F64_IZR; lia. lia. }
  assert (M : forall a, mn = Some a -> exists A, fin a /\ val a = IZR A /\ (Z.abs A <= K + 1)%Z /\ (A <= z)%Z).
  { intros a ->. destruct I1 as [k J]. destruct H1 as [F B]. specialize (V1 a eq_refl). unfold val in *. rewrite J in *.
    rewrite <- abs_IZR in B. apply le_IZR in B. apply le_IZR in V1. exists k. repeat split; auto; lia. }
  unfold rawMin. destruct mn as [a|], xmn as [e|]; cbn [maxFloatPtr addIfNotNil get_or]; auto.
  - destruct (fltb _ _); cbn [get_or]; auto.
  - destruct HN as [HN|HN]; congruence.
Qed.
Lemma rawMax_lim : forall K mx xmx z, (0 <= K <= 2 ^ 50)%Z -> obound (IZR K) mx -> obound (IZR K) xmx -> oint mx -> oint xmx ->
  (forall a, mx = Some a -> IZR z <= B2R a) -> (forall e, xmx = Some e -> IZR z < B2R e) -> (mx <> None \/ xmx <> None) ->
  exists A, fin (rawMax mx xmx (fofZ 1)) /\ val (rawMax mx xmx (fofZ 1)) = IZR A /\ (Z.abs A <= K + 1)%Z /\ (z <= A)%Z.
Proof.
  intros K mx xmx z HK H1 H2 I1 I2 V1 V2 HN. destruct (fofZ_exact 1) as [O1 O2]. lia.
  assert (Fn : fin (fneg (fofZ 1))). { unfold fin, fneg. now rewrite is_finite_Bopp. }
  assert (Vn : val (fneg (fofZ 1)) = -1). { unfold val, fneg. rewrite B2R_Bopp. unfold val in O1. now rewrite O1. }
  assert (E : forall e, xmx = Some e -> exists A, fin (fadd e (fneg (fofZ 1))) /\ val (fadd e (fneg (fofZ 1))) = IZR A /\ (Z.abs A <= K + 1)%Z /\ (z <= A)%Z).
  { intros e ->. destruct I2 as [k J]. destruct H2 as [F B]. specialize (V2 e eq_refl). unfold val in *. rewrite J in *.
    rewrite <- abs_IZR in B. apply le_IZR in B. apply lt_IZR in V2.
    destruct (fadd_mag e (fneg (fofZ 1)) (K + 1)) as (A1 & A2 & A3); auto. lia.
    { unfold val. rewrite J, Vn, <- !abs_IZR, <- plus_IZR. apply IZR_le. lia. }
    exists (k + -1)%Z. unfold val in *. split; auto. rewrite A3, J, Vn, <- plus_IZR. split. apply rnd_id. apply F64_IZR; lia. lia. }
  assert (M : forall a, mx = Some a -> exists A, fin a /\ val a = IZR A /\ (Z.abs A <= K + 1)%Z /\ (z <= A)%Z).
  { intros a ->. destruct I1 as [k J]. destruct H1 as [F B]. specialize (V1 a eq_refl). unfold val in *. rewrite J in *.
    rewrite <- abs_IZR in B. apply le_IZR in B. apply le_IZR in V1. exists k. repeat split; auto; lia. }
  unfold rawMax. destruct mx as [a|], xmx as [e|]; cbn [minFloatPtr addIfNotNil get_or]; auto.
  - destruct (fltb _ _); cbn [get_or]; auto.
  - destruct HN as [HN|HN]; congruence.
Qed.

Lemma limits : forall n z mn mx, keywordsWithin (IZR (2 ^ 46)) (IZR (2 ^ 40)) n -> integerKeywords n -> okBounds n (IZR z) ->
  (sMinimum n <> None \/ sExclusiveMinimum n <> None) -> (sMaximum n <> None \/ sExclusiveMaximum n <> None) ->
  resolveMinMax n true = Good (mn, mx) ->
  exists a b, fin mn /\ fin mx /\ val mn = IZR a /\ val mx = IZR b /\ (Z.abs a <= 2 ^ 46 + 1)%Z /\ (Z.abs b <= 2 ^ 46 + 1)%Z /\ (a <= z <= b)%Z.
Proof.
  intros n z mn mx (K1 & K2 & K3 & K4 & K5) (I1 & I2 & I3 & I4 & I5 & I6) (L & U & LX & UX) N1 N2 H.
  destruct (rawMin_lim (2 ^ 46) _ _ z ltac:(lia) K1 K3 I1 I3 L LX N1) as (A & FA & VA & BA & LA).
  destruct (rawMax_lim (2 ^ 46) _ _ z ltac:(lia) K2 K4 I2 I4 U UX N2) as (B & FB & VB & BB & LB).
  unfold resolveMinMax in H.
  set (mn0 := rawMin (sMinimum n) (sExclusiveMinimum n) (fofZ 1)) in *.
  set (mx0 := rawMax (sMaximum n) (sExclusiveMaximum n) (fofZ 1)) in *.
  set (off := getFloat (fmul (get_or (sMultipleOf n) fzero) (fofZ 100)) (fofZ defaultOffset)) in *.
  assert (ED : defaultRange mn0 mx0 off = (mn0, mx0)).
  { unfold defaultRange. replace (is_inf_neg mn0) with false by (destruct mn0 as [|[]| |]; try reflexivity; discriminate FA).
    replace (is_inf_pos mx0) with false by (destruct mx0 as [|[]| |]; try reflexivity; discriminate FB). reflexivity. }
  rewrite ED in H.
  assert (G1 : mag_ok (2 ^ 51) mn0). { split; auto. rewrite VA, <- abs_IZR. apply IZR_le; lia. }
  assert (G2 : mag_ok (2 ^ 51) mx0). { split; auto. rewrite VB, <- abs_IZR. apply IZR_le; lia. }
  assert (HM : (0 <= 2 ^ 51 <= 2 ^ 53)%Z) by lia.
  destruct (clamp_mag _ _ HM G1) as [C1 _]. destruct (clamp_mag _ _ HM G2) as [_ C2]. rewrite C1, C2 in H.
  destruct (true && _); [discriminate H|]. destruct (fltb _ _); [discriminate H|].
  apply check_same in H. destruct H as [-> ->].
  destruct (fceil_val mn0 FA) as [V1 F1]. destruct (ffloor_val mx0 FB) as [V2 F2].
  rewrite VA, Zceil_IZR in V1. rewrite VB, Zfloor_IZR in V2.
  exists A, B. repeat split; auto; lia.
Qed.

Lemma integer_reached : forall n z p, keywordsWithin (IZR (2 ^ 46)) 0 n -> integerKeywords n -> sMultipleOf n = None ->
  (sMinimum n <> None \/ sExclusiveMinimum n <> None) -> (sMaximum n <> None \/ sExclusiveMaximum n <> None) ->
  parseNumber n true = Good p -> okBounds n (IZR z) ->
  exists d v, producesNumber n true d v /\ numberValue v (IZR z).
Proof.
  intros n z p HK HI HM N1 N2 HP HB.
  assert (HK' : keywordsWithin (IZR (2 ^ 46)) (IZR (2 ^ 40)) n).
  { unfold keywordsWithin in *. rewrite HM in *. exact HK. }
  destruct (parseNumber_inv _ _ _ HP) as (mn & mx & HR & HC).
  destruct (limits n z mn mx HK' HI HB N1 N2 HR) as (a & b & F1 & F2 & V1 & V2 & Ba & Bb & Hz).
  destruct HC as [[E ->]|[E ->]].
  - apply feqb_eq in E; auto. rewrite V1, V2 in E. apply eq_IZR in E. assert (z = a) by lia. subst z.
    exists 0%Z, (JFloat mn). unfold producesNumber. rewrite HP. split; [exact (eq_refl _)|]. exact (conj F1 (eq_sym V1)).
  - apply feqb_neq in E; auto. rewrite V1, V2 in E. assert (a < b)%Z by (assert (a <> b) by (intros ->; apply E; exact (eq_refl _)); lia).
    destruct (hits mn mx a b z F1 F2 V1 V2 ltac:(lia) ltac:(lia) H Hz) as (d & FR & NR).
    destruct (fround_val _ FR) as [VR FR']. unfold Rdiv in *.
    assert (Zn : ZnearestA (val (randomFloat mn mx d)) = z) by (apply Znearest_imp; exact NR).
    rewrite Zn in VR.
    exists d, (JInt z). split; [|exact (eq_refl _)]. unfold producesNumber. rewrite HP. unfold numberGenerate, numberRaw.
    cbn [nInt nMul nMin nMax]. rewrite HM. cbn [get_or]. replace (feqb fzero fzero) with true by (vm_compute; reflexivity).
    cbn [bind]. f_equal. apply finish_int; auto. lia.
Qed.

(* multiples: everything above the lower limit that has another multiple above it *)
Lemma multiple_reached : forall n z p m c, keywordsWithin (IZR (2 ^ 46)) (IZR (2 ^ 40)) n -> integerKeywords n -> sMultipleOf n = Some m -> B2R m = IZR c ->
  (sMinimum n <> None \/ sExclusiveMinimum n <> None) -> (sMaximum n <> None \/ sExclusiveMaximum n <> None) ->
  parseNumber n true = Good p -> okBounds n (IZR (z * c)) -> okBounds n (IZR ((z - 1) * c)) -> okBounds n (IZR ((z + 1) * c)) ->
  exists d, producesNumber n true d (JInt (z * c)).
Proof.
  intros n z p m c HK HI HM Hc N1 N2 HP HB HB1 HB2.
  destruct (parseNumber_inv _ _ _ HP) as (mn & mx & HR & HC).
  destruct (limits n _ mn mx HK HI HB N1 N2 HR) as (a & b & F1 & F2 & V1 & V2 & Ba & Bb & Hz).
  destruct (limits n _ mn mx HK HI HB1 N1 N2 HR) as (a1 & b1 & _ & _ & V11 & V12 & _ & _ & Hz1).
  destruct (limits n _ mn mx HK HI HB2 N1 N2 HR) as (a2 & b2 & _ & _ & V21 & V22 & _ & _ & Hz2).
  rewrite V1 in V11, V21. rewrite V2 in V12, V22. apply eq_IZR in V11, V12, V21, V22. subst a1 a2 b1 b2.
  assert (K5 : is_finite m = true /\ Rabs (B2R m) <= IZR (2 ^ 40)).
  { destruct HK as (_ & _ & _ & _ & K). rewrite HM in K. exact K. }
  assert (C0 : (1 <= c <= 2 ^ 40)%Z).
  { destruct HI as (_ & _ & _ & _ & _ & P). rewrite HM in P. destruct K5 as [_ K]. rewrite Hc in *. rewrite <- abs_IZR in K. apply le_IZR in K. apply lt_IZR in P. lia. }
  assert (Fm : fin m) by apply K5.
  destruct HC as [[E ->]|[E ->]].
  - exfalso. apply feqb_eq in E; auto. rewrite V1, V2 in E. apply eq_IZR in E. nia.
  - set (k := (z - a / c)%Z). set (cnt := (b / c - a / c)%Z).
    assert (A1 : (a / c <= z - 1)%Z) by (apply Z.div_le_upper_bound; lia).
    assert (A2 : (z + 1 <= b / c)%Z) by (apply Z.div_le_lower_bound; lia).
    assert (Db : (Z.abs (b / c) <= 2 ^ 51)%Z).
    { apply Z.abs_le. split. apply Z.div_le_lower_bound; nia. apply Z.div_le_upper_bound; nia. }
    assert (Da : (Z.abs (a / c) <= 2 ^ 51)%Z).
    { apply Z.abs_le. split. apply Z.div_le_lower_bound; nia. apply Z.div_le_upper_bound; nia. }
    destruct (randomInt_onto 1 cnt k) as (d & Hd); try (unfold cnt, k; lia).
    exists d. unfold producesNumber. rewrite HP. unfold numberGenerate, numberRaw. cbn [nInt nMul nMin nMax]. rewrite HM. cbn [get_or].
    assert (NZ : feqb m fzero = false).
    { apply feqb_neq; auto. exact (eq_refl _). rewrite val_fzero. unfold val. rewrite Hc. apply IZR_neq. lia. }
    rewrite NZ. unfold generateMultipleOf. rewrite (countMultiples_exact mn mx m a b c) by (auto; lia). fold cnt.
    destruct (Z.eqb_spec cnt 0); [unfold cnt in *; lia|]. rewrite Hd. cbn [bind].
    destruct (floor_div_exact mn m a c) as [B1 B2]; auto; try lia.
    destruct (fofZ_exact k) as [C1 C2]; [unfold k; lia|].
    pose proof (Z.div_mod a c). pose proof (Z.mod_pos_bound a c).
    assert (Lb : (Z.abs (a / c * c) <= 2 ^ 52)%Z) by lia.
    assert (Ek : (a / c * c + k * c = z * c)%Z) by (unfold k; ring).
    assert (Lk : (Z.abs (k * c) <= 2 ^ 52)%Z) by lia.
    destruct (fmul_correct (ffloor (fdiv mn m)) m) as [M1 M2]; auto.
    { rewrite B2. unfold val. rewrite Hc, <- mult_IZR, rnd_id by (apply F64_IZR; lia). rewrite <- abs_IZR. apply small_ov; lia. }
    rewrite B2 in M1. unfold val in M1 at 2. rewrite Hc, <- mult_IZR, rnd_id in M1 by (apply F64_IZR; lia).
    destruct (fmul_correct (fofZ k) m) as [P1 P2]; auto.
    { rewrite C1. unfold val. rewrite Hc, <- mult_IZR, rnd_id by (apply F64_IZR; lia). rewrite <- abs_IZR. apply small_ov; lia. }
    rewrite C1 in P1. unfold val in P1 at 2. rewrite Hc, <- mult_IZR, rnd_id in P1 by (apply F64_IZR; lia).
    destruct (fadd_correct (fmul (ffloor (fdiv mn m)) m) (fmul (fofZ k) m)) as [S1 S2]; auto.
    { rewrite M1, P1, <- plus_IZR, rnd_id by (apply F64_IZR; lia). rewrite <- abs_IZR. apply small_ov; lia. }
    rewrite M1, P1, <- plus_IZR, rnd_id, Ek in S1 by (apply F64_IZR; lia).
    f_equal. apply finish_int; auto. lia.
Qed.

(* ---- what never comes out ---- *)
(* {"type":"integer","minimum":0,"maximum":30,"multipleOf":10} *)
Definition tens : schemaNode :=
  set_sMinimum (Some (fofZ 0)) (set_sMaximum (Some (fofZ 30)) (set_sMultipleOf (Some (fofZ 10)) emptyNode)).
Lemma tens_only : forall d v, producesNumber tens true d v -> v = JInt 10 \/ v = JInt 20.
Proof.
  intros d v H. unfold producesNumber in H.
  assert (E : parseNumber tens true = Good (NGen (mkNum true (fofZ 0) (fofZ 30) (fofZ 10)))).
  { unfold parseNumber.
    assert (R : resolveMinMax tens true = Good (fofZ 0, fofZ 30)).
    { assert (X : match resolveMinMax tens true with Good (a, b) => B2SF a = B2SF (fofZ 0) /\ B2SF b = B2SF (fofZ 30) | Bad _ => False end)
        by (vm_compute; split; reflexivity).
      destruct (resolveMinMax tens true) as [[a b]|]; [|contradiction]. destruct X as [X Y]. apply B2SF_inj in X, Y. rewrite X, Y. exact (eq_refl _). }
    rewrite R. replace (feqb (fofZ 0) (fofZ 30)) with false by (vm_compute; reflexivity). exact (eq_refl _). }
  rewrite E in H. clear E.
  assert (P : forall k, numberGenerate (mkNum true (fofZ 0) (fofZ 30) (fofZ 10)) k = numberGenerate (mkNum true (fofZ 0) (fofZ 30) (fofZ 10)) (k mod 2)).
  { intros k. unfold numberGenerate, numberRaw. cbn [nInt nMul nMin nMax]. replace (feqb (fofZ 10) fzero) with false by (vm_compute; reflexivity).
    unfold generateMultipleOf. replace (countMultiplesInRange (fofZ 0) (fofZ 30) (fofZ 10)) with 3%Z by (vm_compute; reflexivity).
    replace (3 =? 0)%Z with false by reflexivity.
    assert (Q : forall j, randomInt 1 3 j = Ok (1 + j mod 2)%Z).
    { intros j. unfold randomInt. replace (1 =? 3)%Z with false by reflexivity. rewrite wrap64_id by lia. unfold intn. replace (3 - 1 <=? 0)%Z with false by reflexivity.
      cbn [bind]. pose proof (Z.mod_pos_bound j 2 ltac:(lia)). change (3 - 1)%Z with 2%Z. rewrite wrap64_id by lia. f_equal. lia. }
    rewrite !Q, Z.mod_mod by lia. exact (eq_refl _). }
  rewrite P in H. pose proof (Z.mod_pos_bound d 2 ltac:(lia)). assert (M : (d mod 2 = 0 \/ d mod 2 = 1)%Z) by lia.
  assert (C0 : numberGenerate (mkNum true (fofZ 0) (fofZ 30) (fofZ 10)) 0 = Ok (JInt 10)) by (vm_compute; reflexivity).
  assert (C1 : numberGenerate (mkNum true (fofZ 0) (fofZ 30) (fofZ 10)) 1 = Ok (JInt 20)) by (vm_compute; reflexivity).
  destruct M as [M|M]; rewrite M in H.
  - rewrite C0 in H. left. congruence.
  - rewrite C1 in H. right. congruence.
Qed.
Lemma tens_allowed : okBounds tens (IZR 0) /\ okMultipleOf tens (IZR 0) /\ okBounds tens (IZR 30) /\ okMultipleOf tens (IZR 30).
Proof.
  assert (V0 : B2R (fofZ 0) = 0) by (apply (fofZ_exact 0); lia). assert (V1 : B2R (fofZ 30) = 30) by (apply (fofZ_exact 30); lia). assert (V2 : B2R (fofZ 10) = 10) by (apply (fofZ_exact 10); lia).
  split; [|split; [|split]].
  - split; [|split; [|split]]; intros a Q; try discriminate Q; injection Q as <-; rewrite ?V0, ?V1; lra.
  - intros m Q. injection Q as <-. rewrite V2. exists 0%Z. lra.
  - split; [|split; [|split]]; intros a Q; try discriminate Q; injection Q as <-; rewrite ?V0, ?V1; lra.
  - intros m Q. injection Q as <-. rewrite V2. exists 3%Z. lra.
Qed.

(* {"type":"integer","exclusiveMinimum":2.5,"maximum":10} *)
Definition aboveHalf : schemaNode := set_sExclusiveMinimum (Some (fof 5 (-1))) (set_sMaximum (Some (fofZ 10)) emptyNode).
Lemma half_val : val (fof 5 (-1)) = 5 / 2 /\ fin (fof 5 (-1)).
Proof.
  destruct (val_SF (fof 5 (-1)) false 5629499534213120 (-51)) as [A B]. vm_compute; reflexivity.
  split; [|exact B]. rewrite A. cbn [SpecFloat.cond_Zopp]. change (bpow radix2 (-51)) with (/ IZR 2251799813685248). lra.
Qed.
Lemma aboveHalf_only : forall d v x, producesNumber aboveHalf true d v -> numberValue v x -> 4 <= x.
Proof.
  intros d v x H HV. unfold producesNumber in H. destruct (parseNumber aboveHalf true) as [p|] eqn:E; [|contradiction].
  pose proof half_val as V5.
  destruct (fofZ_exact 10) as [VT FT]. lia.
  assert (HS : numSmall aboveHalf).
  { unfold numSmall. unfold aboveHalf. cbn [sMinimum sMaximum sExclusiveMinimum sExclusiveMaximum sMultipleOf set_sExclusiveMinimum set_sMaximum emptyNode obound].
    split; [exact Logic.I|]. split; [split; [exact FT|rewrite VT, Rabs_pos_eq by lra; lra]|]. split; [split; [apply V5|rewrite (proj1 V5), Rabs_pos_eq by lra; lra]|]. split; exact Logic.I. }
  destruct (int_main aboveHalf d p HS E) as (v' & z & mn & mx & HR & HP & NV & HB & _).
  assert (v' = v) by (destruct p; congruence). subst v'.
  assert (X : match resolveMinMax aboveHalf true with Good (a, b) => B2SF a = B2SF (fofZ 4) | Bad _ => False end) by (vm_compute; reflexivity).
  rewrite HR in X. apply B2SF_inj in X. subst mn. destruct (fofZ_exact 4) as [V4 _]. lia. rewrite V4 in HB.
  apply num_value_spec in NV. assert (x = IZR z).
  { destruct v; cbn [numberValue] in *; try contradiction; [congruence|]. destruct NV as [_ ->]. destruct HV as [_ ->]. reflexivity. }
  lra.
Qed.
Lemma aboveHalf_allowed : okBounds aboveHalf (IZR 3).
Proof.
  pose proof (proj1 half_val) as V5. unfold val in V5.
  assert (V1 : B2R (fofZ 10) = 10) by (apply (fofZ_exact 10); lia).
  split; [|split; [|split]]; intros a Q; try discriminate Q; injection Q as <-; rewrite ?V1, ?V5; lra.
Qed.
Lemma aboveHalf_accepted : exists p, parseNumber aboveHalf true = Good p.
Proof.
  destruct (parseNumber aboveHalf true) as [p|m] eqn:E; [eauto|]. exfalso.
  assert (X : match parseNumber aboveHalf true with Good _ => true | Bad _ => false end = true) by (vm_compute; reflexivity). rewrite E in X. discriminate X.
Qed.

(* {"type":"integer","minimum":3,"exclusiveMaximum":40}: 39 can come out *)
Definition upTo : schemaNode := set_sMinimum (Some (fofZ 3)) (set_sExclusiveMaximum (Some (fofZ 40)) emptyNode).
Lemma upTo_meets : keywordsWithin (IZR (2 ^ 46)) 0 upTo /\ integerKeywords upTo /\ (exists p, parseNumber upTo true = Good p) /\ okBounds upTo (IZR 39).
Proof.
  destruct (fofZ_exact 3) as [V3 F3]. lia. destruct (fofZ_exact 40) as [V4 F4]. lia. unfold val, fin in *.
  split; [|split; [|split]].
  - unfold keywordsWithin, upTo. cbn [sMinimum sMaximum sExclusiveMinimum sExclusiveMaximum sMultipleOf set_sExclusiveMaximum set_sMinimum emptyNode].
    split; [split; [exact F3|rewrite V3, Rabs_pos_eq by lra; lra]|]. split; [exact Logic.I|]. split; [exact Logic.I|]. split; [split; [exact F4|rewrite V4, Rabs_pos_eq by lra; lra]|exact Logic.I].
  - unfold integerKeywords, upTo. cbn [sMinimum sMaximum sExclusiveMinimum sExclusiveMaximum sMultipleOf set_sExclusiveMaximum set_sMinimum emptyNode].
    split; [exists 3%Z; exact V3|]. split; [exact Logic.I|]. split; [exact Logic.I|]. split; [exists 40%Z; exact V4|]. split; exact Logic.I.
  - destruct (parseNumber upTo true) as [p|m] eqn:E; [eauto|]. exfalso.
    assert (X : match parseNumber upTo true with Good _ => true | Bad _ => false end = true) by (vm_compute; reflexivity). rewrite E in X. discriminate X.
  - split; [|split; [|split]]; intros a Q; try discriminate Q; injection Q as <-; rewrite ?V3, ?V4; lra.
Qed.
Lemma tens_makes : forall d, exists v, producesNumber tens true d v.
Proof.
  intros d. destruct (parseNumber tens true) as [p|m] eqn:E.
  - assert (HS : numSmall tens).
    { destruct (fofZ_exact 0) as [V0 F0]. lia. destruct (fofZ_exact 30) as [V3 F3]. lia. destruct (fofZ_exact 10) as [V1 F1]. lia.
      unfold numSmall, tens. cbn [sMinimum sMaximum sExclusiveMinimum sExclusiveMaximum sMultipleOf set_sMaximum set_sMinimum set_sMultipleOf emptyNode obound].
      split; [split; [exact F0|rewrite V0, Rabs_R0; lra]|]. split; [split; [exact F3|rewrite V3, Rabs_pos_eq by lra; lra]|]. split; [exact Logic.I|]. split; [exact Logic.I|].
      split; [exact F1|rewrite V1, Rabs_pos_eq by lra; lra]. }
    destruct (int_main tens d p HS E) as (v & z & mn & mx & HR & HP & NV & HB & _). exists v. unfold producesNumber. rewrite E. destruct p; exact HP.
  - exfalso. assert (X : match parseNumber tens true with Good _ => true | Bad _ => false end = true) by (vm_compute; reflexivity). rewrite E in X. discriminate X.
Qed.
