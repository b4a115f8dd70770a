(* Bridges from the lemmas about the number generator to the specification in SpecNumber. *)
From Coq Require Import ZArith Reals Lia Lra List String Bool.
From Flocq Require Import Core BinarySingleNaN.
From Verif Require Import Base Float64 Json Schema Util Rand Options Number FloatFacts NumberFacts NumberThm SpecNumber.
Open Scope R_scope.

Lemma keywords_small : forall n, keywordsWithin (IZR (2 ^ 50)) (IZR (2 ^ 40)) n -> numSmall n.
Proof. intros n H. exact H. Qed.

Lemma keywords_finite : forall n, finiteKeywords n -> numFinite n.
Proof. intros n H. exact H. Qed.

Lemma within_finite : forall B M n, keywordsWithin B M n -> finiteKeywords n.
Proof.
  intros B M n (A & C & D & E & F). unfold finiteKeywords.
  destruct (sMinimum n), (sMaximum n), (sExclusiveMinimum n), (sExclusiveMaximum n), (sMultipleOf n); tauto.
Qed.

Lemma num_value_spec : forall v x, num_value v = Some x -> numberValue v x.
Proof.
  intros v x H. destruct v; simpl in *; try discriminate.
  - now injection H.
  - destruct (is_finite f) eqn:E; [|discriminate]. injection H as <-. auto.
Qed.

(* strictness of the +-1 offset on integers' bounds, of any size below 2^53 *)
Lemma excl_int : forall e : f64, is_finite e = true -> Rabs (B2R e) <= IZR (2 ^ 50) ->
  B2R e < rnd (B2R e + 1) /\ rnd (B2R e - 1) < B2R e.
Proof.
  intros e F H.
  assert (K : Rabs (B2R e) < bpow radix2 51).
  { apply Rle_lt_trans with (1 := H). change (bpow radix2 51) with (IZR (2 ^ 51)). apply IZR_lt; lia. }
  assert (P : bpow radix2 (51 - 54) < 1).
  { change 1 with (bpow radix2 0). apply bpow_lt. lia. }
  split.
  - apply rnd_gt with 51%Z; auto. apply val_format. lia.
  - apply rnd_lt with 51%Z; auto. apply val_format. lia.
Qed.

Lemma one_val : val (fofZ 1) = 1. Proof. apply (fofZ_exact 1). lia. Qed.

Lemma inf_big : bpow radix2 (-47) < val infinitesimal.
Proof.
  assert (K : fltb (fof 1 (-47)) infinitesimal = true) by (vm_compute; reflexivity).
  assert (F1 : fin (fof 1 (-47))) by (vm_compute; reflexivity).
  assert (F2 : fin infinitesimal) by (vm_compute; reflexivity).
  apply (proj1 (fltb_lt _ _ F1 F2)) in K.
  replace (bpow radix2 (-47)) with (val (fof 1 (-47))); [exact K|].
  assert (E : B2SF (fof 1 (-47)) = SpecFloat.S754_finite false 4503599627370496 (-99)) by (vm_compute; reflexivity).
  destruct (val_SF _ _ _ _ E) as [V _]. rewrite V.
  unfold F2R; simpl Fnum; simpl Fexp. change (cond_Zopp false (Z.pos 4503599627370496)) with (2 ^ 52)%Z.
  change (IZR (2 ^ 52)) with (bpow radix2 52). rewrite <- bpow_plus. reflexivity.
Qed.

(* strictness of the 1e-14 offset for numbers below 128 *)
Lemma excl_num : forall e : f64, is_finite e = true -> Rabs (B2R e) < 128 ->
  B2R e < rnd (B2R e + val infinitesimal) /\ rnd (B2R e - val infinitesimal) < B2R e.
Proof.
  intros e F H. pose proof inf_big as P.
  split.
  - apply rnd_gt with 7%Z; auto. apply val_format. lia.
  - apply rnd_lt with 7%Z; auto. apply val_format. lia.
Qed.

(* C03 and C05 *)
Lemma integer_ok : forall n d v, keywordsWithin (IZR (2 ^ 50)) (IZR (2 ^ 40)) n ->
  (forall m, sMultipleOf n = Some m -> 0 < B2R m) ->
  producesNumber n true d v ->
  exists z : Z, numberValue v (IZR z) /\ okBounds n (IZR z) /\ okMultipleOf n (IZR z).
Proof.
  intros n d v HK HM HP. unfold producesNumber in HP.
  destruct (parseNumber n true) as [p|] eqn:E; [|contradiction].
  destruct (int_main n d p HK E) as (v' & z & mn & mx & HR & HV & NV & HB & HMu & _).
  assert (v' = v). { destruct p; congruence. } subst v'.
  pose proof (within_finite _ _ _ HK) as HF.
  destruct (resolve_spec _ _ _ _ HF HR) as (_ & _ & _ & _ & _ & _ & S1 & S2 & S3 & S4 & _).
  change (excl_off true) with (fofZ 1) in *. rewrite one_val in *. unfold val in *.
  exists z. split; [now apply num_value_spec|]. split.
  - destruct HK as (_ & _ & K3 & K4 & _). repeat split; intros a Ha.
    + specialize (S1 a Ha). lra.
    + specialize (S2 a Ha). lra.
    + specialize (S3 a Ha). rewrite Ha in K3. destruct K3 as [F B]. pose proof (excl_int a F B). lra.
    + specialize (S4 a Ha). rewrite Ha in K4. destruct K4 as [F B]. pose proof (excl_int a F B). lra.
  - intros m Hm. destruct (HMu m Hm) as (k & c & V & ->).
    { specialize (HM m Hm). unfold val. lra. }
    exists k. unfold val in V. rewrite V. apply mult_IZR.
Qed.

Lemma producesNumber_total : forall n d, keywordsWithin (IZR (2 ^ 50)) (IZR (2 ^ 40)) n ->
  (exists p, parseNumber n true = Good p) -> exists v, producesNumber n true d v.
Proof.
  intros n d HK [p E]. destruct (int_main n d p HK E) as (v & z & mn & mx & _ & HV & _).
  exists v. unfold producesNumber. rewrite E. destruct p; auto.
Qed.

(* C04 *)
Lemma number_ok : forall n d v, finiteKeywords n -> sMultipleOf n = None -> producesNumber n false d v ->
  exists x, numberValue v x /\ okMinimum n x /\ okMaximum n x /\
    (forall e, sExclusiveMinimum n = Some e -> Rabs (B2R e) < 128 -> B2R e < x) /\
    (forall e, sExclusiveMaximum n = Some e -> Rabs (B2R e) < 128 -> x < B2R e) /\
    (forall e, sExclusiveMinimum n = Some e -> B2R e <= x) /\
    (forall e, sExclusiveMaximum n = Some e -> x <= B2R e).
Proof.
  intros n d v HF HM HP. unfold producesNumber in HP.
  destruct (parseNumber n false) as [p|] eqn:E; [|contradiction].
  destruct (num_main n d p HF (or_introl HM) E) as (v' & x & mn & mx & HR & HV & NV & HB).
  assert (v' = v). { destruct p; congruence. } subst v'.
  destruct (resolve_spec _ _ _ _ HF HR) as (_ & _ & _ & _ & _ & _ & S1 & S2 & S3 & S4 & _).
  change (excl_off false) with infinitesimal in *. unfold val in *.
  assert (IP : 0 < B2R infinitesimal). { pose proof inf_big. unfold val in *. pose proof (bpow_gt_0 radix2 (-47)). lra. }
  exists x. split; [now apply num_value_spec|].
  destruct HF as (_ & _ & K3 & K4 & _).
  repeat split; intros a Ha.
  - specialize (S1 a Ha). lra.
  - specialize (S2 a Ha). lra.
  - intros B. specialize (S3 a Ha). rewrite Ha in K3. pose proof (excl_num a K3 B). unfold val in *. lra.
  - intros B. specialize (S4 a Ha). rewrite Ha in K4. pose proof (excl_num a K4 B). unfold val in *. lra.
  - specialize (S3 a Ha). assert (B2R a <= rnd (B2R a + B2R infinitesimal)).
    { apply rnd_ge. apply generic_format_B2R. lra. } lra.
  - specialize (S4 a Ha). assert (rnd (B2R a - B2R infinitesimal) <= B2R a).
    { apply rnd_le_gen. apply generic_format_B2R. lra. } lra.
Qed.

(* ---------- C07: acceptance ---------- *)

Definition oint (o : option f64) : Prop := match o with Some x => isInteger (B2R x) | None => True end.

Lemma rawMin_int : forall mn xmn z, obound (IZR (2 ^ 50)) mn -> obound (IZR (2 ^ 50)) xmn -> oint mn -> oint xmn ->
  (forall a, mn = Some a -> B2R a <= IZR z) -> (forall e, xmn = Some e -> B2R e < IZR z) ->
  rawMin mn xmn (fofZ 1) = fninf \/
  exists A, fin (rawMin mn xmn (fofZ 1)) /\ val (rawMin mn xmn (fofZ 1)) = IZR A /\ (Z.abs A <= 2 ^ 50 + 1)%Z /\ (A <= z)%Z.
Proof.
  intros mn xmn z H1 H2 I1 I2 V1 V2. destruct (fofZ_exact 1) as [O1 O2]. lia.
  assert (E : forall e, xmn = Some e -> exists A, fin (fadd e (fofZ 1)) /\ val (fadd e (fofZ 1)) = IZR A /\ (Z.abs A <= 2 ^ 50 + 1)%Z /\ (A <= z)%Z).
  { intros e ->. destruct I2 as [k K]. destruct H2 as [F B]. specialize (V2 e eq_refl). unfold val in *. rewrite K in *.
    rewrite <- abs_IZR in B. apply le_IZR in B. apply lt_IZR in V2.
    destruct (fadd_mag e (fofZ 1) (2 ^ 50 + 1)) as (A1 & A2 & A3); auto. lia.
    { unfold val. rewrite K, O1, <- !abs_IZR, <- plus_IZR. apply IZR_le. lia. }
    exists (k + 1)%Z. unfold val in *. split; auto. rewrite A3, K, O1, <- plus_IZR. split. apply rnd_id. apply F64_IZR; lia. lia. }
  assert (M : forall a, mn = Some a -> exists A, fin a /\ val a = IZR A /\ (Z.abs A <= 2 ^ 50 + 1)%Z /\ (A <= z)%Z).
  { intros a ->. destruct I1 as [k K]. destruct H1 as [F B]. specialize (V1 a eq_refl). unfold val in *. rewrite K in *.
    rewrite <- abs_IZR in B. apply le_IZR in B. apply le_IZR in V1. exists k. repeat split; auto; lia. }
  unfold rawMin. destruct mn as [a|], xmn as [e|]; cbn [maxFloatPtr addIfNotNil get_or]; auto.
  right. destruct (fltb _ _); cbn [get_or]; auto.
Qed.

Lemma rawMax_int : forall mx xmx z, obound (IZR (2 ^ 50)) mx -> obound (IZR (2 ^ 50)) xmx -> oint mx -> oint xmx ->
  (forall a, mx = Some a -> IZR z <= B2R a) -> (forall e, xmx = Some e -> IZR z < B2R e) ->
  rawMax mx xmx (fofZ 1) = finf \/
  exists A, fin (rawMax mx xmx (fofZ 1)) /\ val (rawMax mx xmx (fofZ 1)) = IZR A /\ (Z.abs A <= 2 ^ 50 + 1)%Z /\ (z <= A)%Z.
Proof.
  intros mx xmx z H1 H2 I1 I2 V1 V2. destruct (fofZ_exact 1) as [O1 O2]. lia.
  assert (Fn : fin (fneg (fofZ 1))). { unfold fin, fneg. now rewrite is_finite_Bopp. }
  assert (Vn : val (fneg (fofZ 1)) = -1). { unfold val, fneg. rewrite B2R_Bopp. unfold val in O1. now rewrite O1. }
  assert (E : forall e, xmx = Some e -> exists A, fin (fadd e (fneg (fofZ 1))) /\ val (fadd e (fneg (fofZ 1))) = IZR A /\ (Z.abs A <= 2 ^ 50 + 1)%Z /\ (z <= A)%Z).
  { intros e ->. destruct I2 as [k K]. destruct H2 as [F B]. specialize (V2 e eq_refl). unfold val in *. rewrite K in *.
    rewrite <- abs_IZR in B. apply le_IZR in B. apply lt_IZR in V2.
    destruct (fadd_mag e (fneg (fofZ 1)) (2 ^ 50 + 1)) as (A1 & A2 & A3); auto. lia.
    { unfold val. rewrite K, Vn, <- !abs_IZR, <- plus_IZR. apply IZR_le. lia. }
    exists (k + -1)%Z. unfold val in *. split; auto. rewrite A3, K, Vn, <- plus_IZR. split. apply rnd_id. apply F64_IZR; lia. lia. }
  assert (M : forall a, mx = Some a -> exists A, fin a /\ val a = IZR A /\ (Z.abs A <= 2 ^ 50 + 1)%Z /\ (z <= A)%Z).
  { intros a ->. destruct I1 as [k K]. destruct H1 as [F B]. specialize (V1 a eq_refl). unfold val in *. rewrite K in *.
    rewrite <- abs_IZR in B. apply le_IZR in B. apply le_IZR in V1. exists k. repeat split; auto; lia. }
  unfold rawMax. destruct mx as [a|], xmx as [e|]; cbn [minFloatPtr addIfNotNil get_or]; auto.
  right. destruct (fltb _ _); cbn [get_or]; auto.
Qed.

Lemma sum_int : forall x y A B, fin x -> fin y -> val x = IZR A -> val y = IZR B -> (Z.abs A + Z.abs B <= 2 ^ 53)%Z ->
  fin (fadd x y) /\ val (fadd x y) = IZR (A + B) /\ fin (fsub x y) /\ val (fsub x y) = IZR (A - B).
Proof.
  intros x y A B Fx Fy Vx Vy H.
  destruct (fadd_mag x y (2 ^ 53)) as (A1 & A2 & A3); auto. lia.
  { rewrite Vx, Vy, <- !abs_IZR, <- plus_IZR. apply IZR_le; lia. }
  destruct (fsub_mag x y (2 ^ 53)) as (B1 & B2 & B3); auto. lia.
  { rewrite Vx, Vy, <- !abs_IZR, <- plus_IZR. apply IZR_le; lia. }
  split; auto. rewrite A3, B3, Vx, Vy, <- plus_IZR, <- minus_IZR. repeat split; auto; apply rnd_id; apply F64_IZR; lia.
Qed.

Lemma integer_accepted : forall n z1 z2, keywordsWithin (IZR (2 ^ 50)) (IZR (2 ^ 40)) n -> integerKeywords n ->
  (z1 < z2)%Z -> okBounds n (IZR z1) -> okMultipleOf n (IZR z1) -> okBounds n (IZR z2) -> okMultipleOf n (IZR z2) ->
  exists p, parseNumber n true = Good p.
Proof.
  intros n z1 z2 HK HI Hz (L1 & U1 & LX1 & UX1) M1 (L2 & U2 & LX2 & UX2) M2.
  destruct HK as (K1 & K2 & K3 & K4 & K5). destruct HI as (I1 & I2 & I3 & I4 & I5 & I6).
  pose proof (rawMin_int _ _ z1 K1 K3 I1 I3 L1 LX1) as RM.
  pose proof (rawMax_int _ _ z2 K2 K4 I2 I4 U2 UX2) as RX.
  unfold parseNumber, resolveMinMax.
  set (mn0 := rawMin (sMinimum n) (sExclusiveMinimum n) (fofZ 1)) in *.
  set (mx0 := rawMax (sMaximum n) (sExclusiveMaximum n) (fofZ 1)) in *.
  set (off := getFloat (fmul (get_or (sMultipleOf n) fzero) (fofZ 100)) (fofZ defaultOffset)) in *.
  (* the offset is 100 * multipleOf or 10 *)
  assert (HO : exists O, fin off /\ val off = IZR O /\ (10 <= O <= 2 ^ 47)%Z /\
            (forall m c, sMultipleOf n = Some m -> val m = IZR c -> O = (100 * c)%Z)).
  { unfold off. destruct (fofZ_exact 100) as [V1 F1]. lia.
    destruct (fofZ_exact defaultOffset) as [V2 F2]. unfold defaultOffset; lia.
    destruct (sMultipleOf n) as [m|]; simpl get_or.
    - destruct I5 as [c Vc]. destruct K5 as [Fm Bm]. unfold val in *. rewrite Vc in *.
      rewrite <- abs_IZR in Bm. apply le_IZR in Bm. apply lt_IZR in I6.
      destruct (fmul_mag m (fofZ 100) (2 ^ 47)) as (A & B & C); auto. lia.
      { unfold val. rewrite Vc, V1, <- !abs_IZR, <- mult_IZR. apply IZR_le; lia. }
      unfold val in *. rewrite Vc, V1, <- mult_IZR, rnd_id in C by (apply F64_IZR; lia).
      unfold getFloat. replace (feqb (fmul m (fofZ 100)) fzero) with false.
      2:{ symmetry. apply feqb_neq; auto. unfold val. rewrite C. change (B2R fzero) with 0. intro Q. apply eq_IZR in Q. lia. }
      exists (c * 100)%Z. repeat split; auto; try lia. intros m' c' Q W. injection Q as <-. rewrite Vc in W. apply eq_IZR in W. lia.
    - unfold getFloat. replace (feqb (fmul fzero (fofZ 100)) fzero) with true by (vm_compute; reflexivity).
      exists 10%Z. repeat split; auto; try lia. intros; discriminate. }
  destruct HO as (O & FO & VO & BO & CO).
  (* the default range is an integer interval with two valid points in it *)
  assert (HD : exists a b mn1 mx1, defaultRange mn0 mx0 off = (mn1, mx1) /\ fin mn1 /\ fin mx1 /\ val mn1 = IZR a /\ val mx1 = IZR b /\
    (Z.abs a <= 2 ^ 51)%Z /\ (Z.abs b <= 2 ^ 51)%Z /\ (a < b)%Z /\
    (forall m c, sMultipleOf n = Some m -> val m = IZR c -> (0 < c)%Z -> (b / c - a / c <> 0)%Z)).
  { unfold defaultRange. destruct RM as [EM|(A & FA & VA & BA & LA)], RX as [EX|(B & FB & VB & BB & LB)].
    - rewrite EM, EX. simpl. exists 0%Z, O, fzero, off. repeat split; auto; try lia.
      intros m c Hm Hc Pc. rewrite (CO m c Hm Hc). rewrite Z.div_0_l, Z.div_mul by lia. lia.
    - rewrite EM. replace (is_inf_pos mx0) with false by (destruct mx0 as [|[]| |]; try reflexivity; discriminate FB).
      simpl. destruct (sum_int mx0 off B O) as (_ & _ & S1 & S2); auto. lia.
      exists (B - O)%Z, B, (fsub mx0 off), mx0. repeat split; auto; try lia.
      intros m c Hm Hc Pc. rewrite (CO m c Hm Hc). replace (B - 100 * c)%Z with (B + (-100) * c)%Z by lia.
      rewrite Z.div_add by lia. lia.
    - rewrite EX. replace (is_inf_neg mn0) with false by (destruct mn0 as [|[]| |]; try reflexivity; discriminate FA).
      simpl. destruct (sum_int mn0 off A O) as (S1 & S2 & _ & _); auto. lia.
      exists A, (A + O)%Z, mn0, (fadd mn0 off). repeat split; auto; try lia.
      intros m c Hm Hc Pc. rewrite (CO m c Hm Hc). rewrite Z.div_add by lia. lia.
    - replace (is_inf_neg mn0) with false by (destruct mn0 as [|[]| |]; try reflexivity; discriminate FA).
      replace (is_inf_pos mx0) with false by (destruct mx0 as [|[]| |]; try reflexivity; discriminate FB).
      simpl. exists A, B, mn0, mx0. repeat split; auto; try lia.
      intros m c Hm Hc Pc. destruct (M1 m Hm) as [k1 Q1]. destruct (M2 m Hm) as [k2 Q2].
      unfold val in Hc. rewrite Hc, <- mult_IZR in Q1, Q2. apply eq_IZR in Q1, Q2. subst z1 z2.
      assert (k1 < k2)%Z by nia.
      assert (A / c <= k1)%Z. { apply Z.div_le_upper_bound; lia. }
      assert (k2 <= B / c)%Z. { apply Z.div_le_lower_bound; lia. }
      lia. }
  destruct HD as (a & b & mn1 & mx1 & ED & F1 & F2 & V1 & V2 & Ba & Bb & Hab & HMul).
  rewrite ED.
  assert (G1 : mag_ok (2 ^ 51) mn1). { split; auto. rewrite V1, <- abs_IZR. now apply IZR_le. }
  assert (G2 : mag_ok (2 ^ 51) mx1). { split; auto. rewrite V2, <- abs_IZR. now apply IZR_le. }
  destruct (clamp_mag (2 ^ 51) mn1) as [C1 _]; auto. lia.
  destruct (clamp_mag (2 ^ 51) mx1) as [_ C2]; auto. lia.
  rewrite C1, C2.
  destruct (ffloor_val mn1 F1) as [FV1 FF1]. destruct (ffloor_val mx1 F2) as [FV2 FF2].
  destruct (fceil_val mn1 F1) as [CV1 CF1].
  rewrite V1, Zfloor_IZR in FV1. rewrite V2, Zfloor_IZR in FV2. rewrite V1, Zceil_IZR in CV1.
  replace (feqb (ffloor mn1) (ffloor mx1)) with false.
  2:{ symmetry. apply feqb_neq; auto. rewrite FV1, FV2. intro Q. apply eq_IZR in Q. lia. }
  simpl andb. cbv iota.
  replace (fltb (ffloor mx1) (fceil mn1)) with false.
  2:{ symmetry. apply fltb_ge; auto. rewrite CV1, FV2. apply IZR_le. lia. }
  cbv iota.
  assert (HC : checkMultipleOf true (fceil mn1) (ffloor mx1) (sMultipleOf n) = Good (fceil mn1, ffloor mx1)).
  { unfold checkMultipleOf. destruct (sMultipleOf n) as [m|] eqn:Em; auto.
    destruct I5 as [c Vc]. destruct K5 as [Fm Bm]. rewrite Vc in Bm, I6. rewrite <- abs_IZR in Bm. apply le_IZR in Bm. apply lt_IZR in I6.
    assert (Vm : val m = IZR c) by exact Vc.
    replace (fltb m fzero) with false.
    2:{ symmetry. apply fltb_ge; [exact Fm|reflexivity|]. rewrite Vm. change (val fzero) with 0. apply IZR_le; lia. }
    replace (fltb m infinitesimal) with false.
    2:{ symmetry. apply fltb_ge; auto. vm_compute; reflexivity. rewrite Vm.
        destruct (excl_off_val false) as [_ [_ Q]]. change (excl_off false) with infinitesimal in Q.
        apply Rle_trans with (1 := Q). apply IZR_le. lia. }
    rewrite andb_false_r.
    destruct (ftrunc_val m Fm) as [TV TF].
    replace (feqb (ftrunc m) m) with true.
    2:{ symmetry. apply feqb_eq; auto. rewrite TV, Vm. now rewrite Ztrunc_IZR. }
    simpl andb. cbv iota.
    rewrite (countMultiples_exact _ _ m a b c) by (auto; lia).
    destruct (Z.eqb_spec (b / c - a / c) 0); auto.
    exfalso. eapply HMul; eauto. }
  rewrite HC. destruct (feqb _ _); eauto.
Qed.

Lemma rawMin_cases : forall mn xmn off, rawMin mn xmn off = fninf \/
  (exists a, mn = Some a /\ rawMin mn xmn off = a) \/ (exists e, xmn = Some e /\ rawMin mn xmn off = fadd e off).
Proof.
  intros [a|] [e|] off; unfold rawMin; cbn [maxFloatPtr addIfNotNil get_or].
  - right. destruct (fltb a (fadd e off)); cbn [get_or]; [right|left]; eexists; split; reflexivity.
  - right; left. eexists; split; reflexivity.
  - right; right. eexists; split; reflexivity.
  - left. reflexivity.
Qed.

Lemma rawMax_cases : forall mx xmx off, rawMax mx xmx off = finf \/
  (exists a, mx = Some a /\ rawMax mx xmx off = a) \/ (exists e, xmx = Some e /\ rawMax mx xmx off = fadd e (fneg off)).
Proof.
  intros [a|] [e|] off; unfold rawMax; cbn [minFloatPtr addIfNotNil get_or].
  - right. destruct (fltb (fadd e (fneg off)) a); cbn [get_or]; [right|left]; eexists; split; reflexivity.
  - right; left. eexists; split; reflexivity.
  - right; right. eexists; split; reflexivity.
  - left. reflexivity.
Qed.

Lemma number_accepted : forall n, keywordsWithin (IZR (2 ^ 50)) 0 n -> sMultipleOf n = None ->
  ((sExclusiveMinimum n = None /\ sExclusiveMaximum n = None /\ exists x, okBounds n x) \/
   (exists x, okBounds n x /\ okBounds n (x + 1))) ->
  exists p, parseNumber n false = Good p.
Proof.
  intros n HK HM HX. destruct HK as (K1 & K2 & K3 & K4 & _).
  pose proof (rawMin_mag (sMinimum n) (sExclusiveMinimum n) false K1 K3) as RM.
  pose proof (rawMax_mag (sMaximum n) (sExclusiveMaximum n) false K2 K4) as RX.
  pose proof (rawMin_cases (sMinimum n) (sExclusiveMinimum n) infinitesimal) as CM.
  pose proof (rawMax_cases (sMaximum n) (sExclusiveMaximum n) infinitesimal) as CX.
  change (excl_off false) with infinitesimal in *.
  unfold parseNumber, resolveMinMax. cbv iota.
  set (mn0 := rawMin (sMinimum n) (sExclusiveMinimum n) infinitesimal) in *.
  set (mx0 := rawMax (sMaximum n) (sExclusiveMaximum n) infinitesimal) in *.
  assert (HL : mag_ok (2 ^ 50 + 1) mn0 -> mag_ok (2 ^ 50 + 1) mx0 -> val mn0 <= val mx0).
  { intros [F1 _] [F2 _].
    destruct inf_val as [FI VI]. assert (B46 : bpow radix2 (-46) = / 70368744177664) by reflexivity. rewrite B46 in VI.
    destruct (excl_off_val false) as [FO VO]. change (excl_off false) with infinitesimal in *.
    assert (Fn : fin (fneg infinitesimal)). { unfold fin, fneg. now rewrite is_finite_Bopp. }
    assert (Vn : val (fneg infinitesimal) = - val infinitesimal). { apply B2R_Bopp. }
    assert (Ro : Rabs (val infinitesimal) <= 1) by (rewrite Rabs_pos_eq; lra).
    assert (Rn : Rabs (val (fneg infinitesimal)) <= 1) by (rewrite Vn, Rabs_Ropp; assumption).
    destruct CM as [Q|[(a & Ha & ->)|(e & He & ->)]]; [rewrite Q in F1; discriminate F1| |];
    (destruct CX as [Q|[(b & Hb & ->)|(f & Hf & ->)]]; [rewrite Q in F2; discriminate F2| |]).
    - destruct HX as [(_ & _ & x & L & U & _)|(x & (L & U & _) & _)];
      specialize (L a Ha); specialize (U b Hb); unfold val; lra.
    - destruct HX as [(_ & Q & _)|(x & (L & _) & (_ & _ & _ & UX))]; [congruence|].
      specialize (L a Ha). specialize (UX f Hf). rewrite Hf in K4. destruct K4 as [K4 _].
      destruct (fadd_small f (fneg infinitesimal) K4 Fn Rn) as [V _]. rewrite V, Vn.
      apply rnd_ge. apply val_format. unfold val in *. lra.
    - destruct HX as [(Q & _)|(x & (_ & _ & LX & _) & (_ & U & _))]; [congruence|].
      specialize (U b Hb). specialize (LX e He). rewrite He in K3. destruct K3 as [K3 _].
      destruct (fadd_small e infinitesimal K3 FO Ro) as [V _]. rewrite V.
      apply rnd_le_gen. apply val_format. unfold val in *. lra.
    - destruct HX as [(Q & _)|(x & (_ & _ & LX & _) & (_ & _ & _ & UX))]; [congruence|].
      specialize (LX e He). specialize (UX f Hf).
      rewrite He in K3. destruct K3 as [K3 _]. rewrite Hf in K4. destruct K4 as [K4 _].
      destruct (fadd_small e infinitesimal K3 FO Ro) as [V1 _]. destruct (fadd_small f (fneg infinitesimal) K4 Fn Rn) as [V2 _].
      rewrite V1, V2, Vn. apply rnd_le. unfold val in *. lra. }
  rewrite HM. cbn [get_or].
  replace (getFloat (fmul fzero (fofZ 100)) (fofZ defaultOffset)) with (fofZ defaultOffset)
    by (unfold getFloat; replace (feqb (fmul fzero (fofZ 100)) fzero) with true by (vm_compute; reflexivity); reflexivity).
  destruct (fofZ_exact defaultOffset) as [OV OF]. unfold defaultOffset; lia.
  set (off := fofZ defaultOffset) in *.
  assert (OM : Rabs (val off) <= 10). { rewrite OV. unfold defaultOffset. rewrite Rabs_pos_eq; lra. }
  assert (OP : 0 <= val off). { rewrite OV. unfold defaultOffset. lra. }
  assert (SM : forall x, mag_ok (2 ^ 50 + 1) x -> mag_ok (2 ^ 51) (fadd x off) /\ mag_ok (2 ^ 51) (fsub x off) /\
     val x <= val (fadd x off) /\ val (fsub x off) <= val x).
  { intros x [A B].
    assert (S : Rabs (val x) + Rabs (val off) <= IZR (2 ^ 51)).
    { apply Rle_trans with (IZR (2 ^ 50 + 1) + IZR 10). lra. rewrite <- plus_IZR. apply IZR_le; lia. }
    destruct (fadd_mag x off (2 ^ 51)) as (E & G & H); auto. lia.
    destruct (fsub_mag x off (2 ^ 51)) as (E' & G' & H'); auto. lia.
    repeat split; auto.
    - rewrite H. apply rnd_ge. apply val_format. lra.
    - rewrite H'. apply rnd_le_gen. apply val_format. lra. }
  assert (W : forall x, mag_ok (2 ^ 50 + 1) x -> mag_ok (2 ^ 51) x) by (intros; eapply mag_weaken; [|eassumption]; lia).
  assert (HD : exists mn1 mx1, defaultRange mn0 mx0 off = (mn1, mx1) /\ mag_ok (2 ^ 51) mn1 /\ mag_ok (2 ^ 51) mx1 /\ val mn1 <= val mx1).
  { unfold defaultRange. destruct RM as [EM|FM], RX as [EX|FX].
    - rewrite EM, EX. cbn [is_inf_neg is_inf_pos fninf finf andb].
      exists fzero, off. split; [reflexivity|]. split.
      { split. reflexivity. change (val fzero) with 0. rewrite Rabs_R0. apply IZR_le; lia. }
      split. { split; auto. apply Rle_trans with (1 := OM). apply IZR_le; lia. } exact OP.
    - rewrite EM. assert (E : is_inf_pos mx0 = false) by (destruct FX as [FX _]; destruct mx0 as [|[]| |]; try reflexivity; discriminate FX).
      rewrite E. cbn [is_inf_neg fninf andb]. exists (fsub mx0 off), mx0. destruct (SM _ FX) as (_ & S1 & _ & S2). auto.
    - rewrite EX. assert (E : is_inf_neg mn0 = false) by (destruct FM as [FM _]; destruct mn0 as [|[]| |]; try reflexivity; discriminate FM).
      rewrite E. cbn [is_inf_pos finf andb]. exists mn0, (fadd mn0 off). destruct (SM _ FM) as (S1 & _ & S2 & _). auto.
    - assert (E : is_inf_neg mn0 = false) by (destruct FM as [FM _]; destruct mn0 as [|[]| |]; try reflexivity; discriminate FM).
      assert (E' : is_inf_pos mx0 = false) by (destruct FX as [FX _]; destruct mx0 as [|[]| |]; try reflexivity; discriminate FX).
      rewrite E, E'. cbn [andb]. exists mn0, mx0. auto. }
  destruct HD as (mn1 & mx1 & -> & M1 & M2 & Hle).
  destruct (clamp_mag (2 ^ 51) mn1) as [C1 _]; auto. lia.
  destruct (clamp_mag (2 ^ 51) mx1) as [_ C2]; auto. lia.
  rewrite C1, C2. cbn [andb].
  replace (fltb mx1 mn1) with false.
  2:{ symmetry. destruct M1, M2. apply fltb_ge; assumption. }
  cbn [checkMultipleOf]. destruct (feqb mn1 mx1); eexists; reflexivity.
Qed.
