(* Number generators of schemas with moderate keywords never panic, and the arithmetic of bounds stays
   moderate. *)
From Coq Require Import ZArith Reals List String Bool Lia Lra.
From Flocq Require Import Core BinarySingleNaN.
From Verif Require Import Base Float64 Util Rand Json Schema Number FloatFacts NumberFacts HcfFacts NotMerge.
Import ListNotations.
Open Scope R_scope.

Definition bigB : R := IZR (2 ^ 54).
Definition bnd (B : R) (x : f64) : Prop := fin x /\ Rabs (val x) <= B.
Definition obnd (B : R) (o : option f64) : Prop := match o with Some x => bnd B x | None => True end.

Lemma F64_bpow : forall e, (-1074 <= e <= 1023)%Z -> F64 (bpow radix2 e).
Proof. intros e He. rewrite <- (Rmult_1_l (bpow radix2 e)). apply (F64_small 1); lia. Qed.
Lemma bigB_bpow : bigB = bpow radix2 54.
Proof. reflexivity. Qed.

Lemma fadd_bnd : forall x y M, fin x -> fin y -> F64 M -> M < bpow radix2 1024 -> Rabs (val x) + Rabs (val y) <= M -> bnd M (fadd x y).
Proof.
  intros x y M Hx Hy FM HM H.
  assert (A : Rabs (rnd (val x + val y)) <= M) by (apply abs_rnd_le; auto; pose proof (Rabs_triang (val x) (val y)); lra).
  destruct (fadd_correct x y Hx Hy) as [V F]; [lra|]. split; auto. rewrite V. exact A.
Qed.
Lemma fsub_bnd : forall x y M, fin x -> fin y -> F64 M -> M < bpow radix2 1024 -> Rabs (val x) + Rabs (val y) <= M -> bnd M (fsub x y).
Proof.
  intros x y M Hx Hy FM HM H.
  assert (A : Rabs (rnd (val x - val y)) <= M).
  { apply abs_rnd_le; auto. unfold Rminus. pose proof (Rabs_triang (val x) (- val y)) as T. rewrite Rabs_Ropp in T. lra. }
  destruct (fsub_correct x y Hx Hy) as [V F]; [lra|]. split; auto. rewrite V. exact A.
Qed.

(* 2^54 + 1 rounds to 2^54 *)
Lemma rnd_big : rnd (bigB + 1) = bigB.
Proof.
  assert (K : val (fadd (fofZ (2 ^ 54)) (fofZ 1)) = val (fofZ (2 ^ 54)) /\ fin (fofZ (2 ^ 54))).
  { assert (E : fadd (fofZ (2 ^ 54)) (fofZ 1) = fofZ (2 ^ 54)) by (apply B2SF_inj; vm_compute; reflexivity). rewrite E. split; auto. vm_compute. reflexivity. }
  destruct K as [K F]. destruct (fofZ_exact 1) as [V1 F1]; [lia|].
  assert (V : val (fofZ (2 ^ 54)) = bigB).
  { destruct (fofZ_correct (2 ^ 54)) as [V _].
    - rewrite rnd_id; [|exact (F64_bpow 54 ltac:(lia))]. change (IZR (2 ^ 54)) with (bpow radix2 54). rewrite Rabs_pos_eq; [apply bpow_lt; lia|apply bpow_ge_0].
    - rewrite V. apply rnd_id. exact (F64_bpow 54 ltac:(lia)). }
  rewrite <- V. rewrite <- K at 2. rewrite <- V1.
  symmetry. apply fadd_correct; auto. rewrite V, V1.
  apply Rle_lt_trans with (bpow radix2 55); [|apply bpow_lt; lia].
  apply abs_rnd_le; [apply F64_bpow; lia|]. rewrite bigB_bpow. rewrite Rabs_pos_eq; [|pose proof (bpow_ge_0 radix2 54); lra].
  replace (bpow radix2 55) with (2 * bpow radix2 54) by (change 55%Z with (1 + 54)%Z; rewrite bpow_plus; reflexivity).
  pose proof (bpow_le radix2 0 54 ltac:(lia)) as X. simpl (bpow radix2 0) in X. lra.
Qed.
Lemma rnd_neg : forall x, rnd (- x) = - rnd x.
Proof. intros x. exact (round_NE_opp radix2 fexp64 x). Qed.
Lemma rnd_near : forall x, Rabs x <= bigB + 1 -> Rabs (rnd x) <= bigB.
Proof.
  intros x H. apply Rabs_le_inv in H. apply Rabs_le. split.
  - rewrite <- rnd_big. rewrite <- rnd_neg. apply rnd_le. lra.
  - rewrite <- rnd_big. apply rnd_le. lra.
Qed.
Lemma near_add : forall x o, bnd bigB x -> fin o -> Rabs (val o) <= 1 -> bnd bigB (fadd x o).
Proof.
  intros x o [Hx Bx] Ho Bo.
  assert (A : Rabs (rnd (val x + val o)) <= bigB) by (apply rnd_near; pose proof (Rabs_triang (val x) (val o)); lra).
  destruct (fadd_correct x o Hx Ho) as [V F].
  { apply Rle_lt_trans with (1 := A). rewrite bigB_bpow. apply bpow_lt. lia. }
  split; auto. rewrite V. exact A.
Qed.
Lemma near_sub : forall x o, bnd bigB x -> fin o -> Rabs (val o) <= 1 -> bnd bigB (fsub x o).
Proof.
  intros x o [Hx Bx] Ho Bo.
  assert (A : Rabs (rnd (val x - val o)) <= bigB).
  { apply rnd_near. unfold Rminus. pose proof (Rabs_triang (val x) (- val o)) as T. rewrite Rabs_Ropp in T. lra. }
  destruct (fsub_correct x o Hx Ho) as [V F].
  { apply Rle_lt_trans with (1 := A). rewrite bigB_bpow. apply bpow_lt. lia. }
  split; auto. rewrite V. exact A.
Qed.
Lemma off_abs : forall i, Rabs (val (excl_off i)) <= 1 /\ fin (fneg (excl_off i)) /\ Rabs (val (fneg (excl_off i))) <= 1.
Proof.
  intros i. destruct (excl_off_val i) as [Fo Vo]. assert (V : val (fneg (excl_off i)) = - val (excl_off i)) by apply B2R_Bopp.
  assert (F : fin (fneg (excl_off i))) by (unfold fin, fneg; rewrite is_finite_Bopp; exact Fo).
  rewrite V, Rabs_Ropp, Rabs_pos_eq by lra. repeat split; auto; lra.
Qed.
Lemma addIf_bnd : forall o i, obnd bigB o -> obnd bigB (addIfNotNil o (excl_off i)) /\ obnd bigB (addIfNotNil o (fneg (excl_off i))).
Proof.
  intros [x|] i H; cbn [addIfNotNil obnd]; auto. destruct (off_abs i) as (A & B & C). destruct (excl_off_val i) as [Fo _]. split; apply near_add; auto.
Qed.
Lemma fmax_bnd : forall a b, obnd bigB a -> obnd bigB b -> obnd bigB (maxFloatPtr a b).
Proof. intros [x|] [y|] Ha Hb; cbn [maxFloatPtr]; auto. destruct (fltb x y); auto. Qed.
Lemma fmin_bnd : forall a b, obnd bigB a -> obnd bigB b -> obnd bigB (minFloatPtr a b).
Proof. intros [x|] [y|] Ha Hb; cbn [minFloatPtr]; auto. destruct (fltb y x); auto. Qed.

(* the range of a generator *)
Definition wideZ : Z := 129 * 2 ^ 47.
Lemma wide_F64 : F64 (IZR wideZ).
Proof. unfold wideZ. rewrite mult_IZR. change (IZR (2 ^ 47)) with (bpow radix2 47). apply F64_small; lia. Qed.
Lemma wide_ov : IZR wideZ < bpow radix2 1024.
Proof. apply Rle_lt_trans with (IZR (2 ^ 55)); [apply IZR_le; unfold wideZ; lia|]. change (IZR (2 ^ 55)) with (bpow radix2 55). apply bpow_lt. lia. Qed.
Lemma wide_upper : IZR wideZ < val upperBound.
Proof.
  assert (K : fltb (fofZ (2 ^ 55)) upperBound = true) by (vm_compute; reflexivity).
  assert (V : val (fofZ (2 ^ 55)) = bpow radix2 55 /\ fin (fofZ (2 ^ 55))).
  { destruct (fofZ_correct (2 ^ 55)) as [V F].
    - rewrite rnd_id; [|exact (F64_bpow 55 ltac:(lia))]. change (IZR (2 ^ 55)) with (bpow radix2 55). rewrite Rabs_pos_eq; [apply bpow_lt; lia|apply bpow_ge_0].
    - split; auto. rewrite V. apply rnd_id. exact (F64_bpow 55 ltac:(lia)). }
  destruct V as [V F]. apply fltb_lt in K; [|exact F|apply upper_fin]. rewrite V in K. change (bpow radix2 55) with (IZR (2 ^ 55)) in K.
  apply Rle_lt_trans with (2 := K). apply IZR_le. unfold wideZ. lia.
Qed.
Lemma clamp_wide : forall x, mag_ok wideZ x -> clampMin x = x /\ clampMax x = x.
Proof.
  intros x [A B]. pose proof wide_upper. destruct lower_val as [FL VL]. destruct upper_fin as [FU _]. apply Rabs_le_inv in B.
  split.
  - unfold clampMin. replace (fltb x lowerBound) with false; auto. symmetry. apply fltb_ge; auto. lra.
  - unfold clampMax. replace (fltb upperBound x) with false; auto. symmetry. apply fltb_ge; auto. lra.
Qed.
Lemma rawMin_bnd : forall mn xmn i, obnd bigB mn -> obnd bigB xmn ->
  rawMin mn xmn (excl_off i) = fninf \/ bnd bigB (rawMin mn xmn (excl_off i)).
Proof.
  intros mn xmn i H1 H2. unfold rawMin. destruct (addIf_bnd xmn i H2) as [A _]. pose proof (fmax_bnd _ _ H1 A) as M.
  destruct (maxFloatPtr mn (addIfNotNil xmn (excl_off i))); cbn [get_or]; auto.
Qed.
Lemma rawMax_bnd : forall mx xmx i, obnd bigB mx -> obnd bigB xmx ->
  rawMax mx xmx (excl_off i) = finf \/ bnd bigB (rawMax mx xmx (excl_off i)).
Proof.
  intros mx xmx i H1 H2. unfold rawMax. destruct (addIf_bnd xmx i H2) as [_ A]. pose proof (fmin_bnd _ _ H1 A) as M.
  destruct (minFloatPtr mx (addIfNotNil xmx (fneg (excl_off i)))); cbn [get_or]; auto.
Qed.
Lemma resolve_wide : forall n i mn mx, obnd bigB (sMinimum n) -> obnd bigB (sMaximum n) -> obnd bigB (sExclusiveMinimum n) -> obnd bigB (sExclusiveMaximum n) ->
  obound (IZR (2 ^ 40)) (sMultipleOf n) -> resolveMinMax n i = Good (mn, mx) -> mag_ok wideZ mn /\ mag_ok wideZ mx.
Proof.
  intros n i mn mx N1 N2 N3 N4 N5 H. unfold resolveMinMax in H. fold (excl_off i) in H.
  pose proof (rawMin_bnd (sMinimum n) (sExclusiveMinimum n) i N1 N3) as RM.
  pose proof (rawMax_bnd (sMaximum n) (sExclusiveMaximum n) i N2 N4) as RX.
  pose proof (offset_mag _ N5) as OM.
  set (mn0 := rawMin (sMinimum n) (sExclusiveMinimum n) (excl_off i)) in *.
  set (mx0 := rawMax (sMaximum n) (sExclusiveMaximum n) (excl_off i)) in *.
  set (off := getFloat (fmul (get_or (sMultipleOf n) fzero) (fofZ 100)) (fofZ defaultOffset)) in *.
  destruct (defaultRange mn0 mx0 off) as [mn1 mx1] eqn:DR.
  assert (P : forall x, bnd bigB x -> mag_ok wideZ x).
  { intros x [A B]. split; auto. apply Rle_trans with (1 := B). apply IZR_le. unfold wideZ. lia. }
  assert (Sum : forall x, bnd bigB x -> mag_ok wideZ (fadd x off) /\ mag_ok wideZ (fsub x off)).
  { intros x [A B]. destruct OM as [C D].
    assert (Rabs (val x) + Rabs (val off) <= IZR wideZ).
    { apply Rle_trans with (IZR (2 ^ 54) + IZR (2 ^ 47)). unfold bigB in B. lra. rewrite <- plus_IZR. apply IZR_le. unfold wideZ. lia. }
    split; [apply fadd_bnd|apply fsub_bnd]; auto using wide_F64, wide_ov. }
  assert (D : mag_ok wideZ mn1 /\ mag_ok wideZ mx1).
  { unfold defaultRange in DR.
    destruct RM as [EM|FM], RX as [EX|FX].
    - rewrite EM, EX in *. simpl in DR. injection DR as <- <-. split.
      + split. reflexivity. rewrite val_fzero, Rabs_R0. apply IZR_le; unfold wideZ; lia.
      + eapply mag_weaken; [|eauto]. unfold wideZ. lia.
    - rewrite EM in *. simpl in DR. replace (is_inf_pos mx0) with false in DR by (destruct FX; destruct mx0 as [|[]| |]; try reflexivity; discriminate).
      injection DR as <- <-. split; auto. now apply Sum.
    - rewrite EX in *. replace (is_inf_neg mn0) with false in DR by (destruct FM; destruct mn0 as [|[]| |]; try reflexivity; discriminate).
      simpl in DR. injection DR as <- <-. split; auto. now apply Sum.
    - replace (is_inf_neg mn0) with false in DR by (destruct FM; destruct mn0 as [|[]| |]; try reflexivity; discriminate).
      replace (is_inf_pos mx0) with false in DR by (destruct FX; destruct mx0 as [|[]| |]; try reflexivity; discriminate).
      simpl in DR. injection DR as <- <-. split; auto. }
  destruct D as [D1 D2].
  destruct (clamp_wide _ D1) as [C1 _]. destruct (clamp_wide _ D2) as [_ C2]. rewrite C1, C2 in H.
  destruct (i && _); [discriminate H|]. destruct (fltb _ _); [discriminate H|].
  assert (HC : mn = (if i then fceil mn1 else mn1) /\ mx = (if i then ffloor mx1 else mx1)).
  { apply check_same in H. exact H. }
  destruct HC as [-> ->]. destruct i; split; auto; apply mag_round; auto; unfold wideZ; lia.
Qed.

(* how many multiples there are: no overflow, and not negative *)
Definition quotZ : Z := 129 * 2 ^ 54.
Lemma quot_val : forall x m, mag_ok wideZ x -> fin m -> / 128 <= val m ->
  exists z, int_of_f64 (ffloor (fdiv x m)) = z /\ z = Zfloor (rnd (val x / val m)) /\ (- quotZ <= z <= quotZ)%Z.
Proof.
  intros x m [Fx Bx] Fm Hm.
  assert (HQ : F64 (IZR quotZ)). { unfold quotZ. rewrite mult_IZR. change (IZR (2 ^ 54)) with (bpow radix2 54). apply F64_small; lia. }
  assert (B : Rabs (rnd (val x / val m)) <= IZR quotZ).
  { apply abs_rnd_le; auto. unfold Rdiv. rewrite Rabs_mult, Rabs_inv, (Rabs_pos_eq (val m)) by lra.
    apply Rle_trans with (IZR wideZ * 128).
    - apply Rmult_le_compat; [apply Rabs_pos|left; apply Rinv_0_lt_compat; lra|exact Bx|].
      rewrite <- (Rinv_inv 128). apply Rinv_le; lra.
    - rewrite <- mult_IZR. apply IZR_le. unfold wideZ, quotZ. lia. }
  destruct (fdiv_correct x m Fx) as [V F]; [lra| |].
  { apply Rle_lt_trans with (1 := B). apply Rle_lt_trans with (IZR (2 ^ 62)); [apply IZR_le; unfold quotZ; lia|].
    change (IZR (2 ^ 62)) with (bpow radix2 62). apply bpow_lt. lia. }
  destruct (ffloor_val _ F) as [V2 F2]. rewrite V in V2. apply Rabs_le_inv in B.
  assert (Z : (- quotZ <= Zfloor (rnd (val x / val m)) <= quotZ)%Z).
  { split.
    - apply Zfloor_lub. rewrite opp_IZR. lra.
    - apply le_IZR. apply Rle_trans with (2 := proj2 B). apply Zfloor_lb. }
  exists (Zfloor (rnd (val x / val m))). split; [|auto]. apply int_of_f64_val; auto. unfold quotZ in Z. lia.
Qed.
Lemma count_safe : forall mn mx m, mag_ok wideZ mn -> mag_ok wideZ mx -> val mn <= val mx -> fin m -> / 128 <= val m ->
  (0 <= countMultiplesInRange mn mx m < 2 ^ 63)%Z.
Proof.
  intros mn mx m Hn Hx L Fm Hm. destruct (quot_val mx m Hx Fm Hm) as (b & Eb & Vb & Bb). destruct (quot_val mn m Hn Fm Hm) as (a & Ea & Va & Ba).
  unfold countMultiplesInRange. rewrite Ea, Eb.
  assert (A : (a <= b)%Z).
  { rewrite Va, Vb. apply Zfloor_le. apply rnd_le. unfold Rdiv. apply Rmult_le_compat_r; auto. left. apply Rinv_0_lt_compat. lra. }
  destruct (feqb mn fzero) eqn:Ez.
  - apply feqb_eq in Ez; [|apply Hn|reflexivity]. split; [|unfold quotZ in Bb; lia]. rewrite Vb. apply Zfloor_lub.
    apply rnd_ge; [apply (F64_IZR 0); lia|]. rewrite val_fzero in Ez. unfold Rdiv. apply Rmult_le_pos; [lra|]. left. apply Rinv_0_lt_compat. lra.
  - rewrite wrap64_id; unfold quotZ in *; lia.
Qed.
Lemma randomInt_safe : forall c d, (1 <= c < 2 ^ 63)%Z -> exists r, randomInt 1 c d = Ok r.
Proof.
  intros c d H. unfold randomInt. destruct (1 =? c)%Z eqn:E; [eauto|]. apply Z.eqb_neq in E. unfold intn. rewrite wrap64_id by lia.
  destruct (c - 1 <=? 0)%Z eqn:K; [apply Z.leb_le in K; lia|]. cbn [bind]. eauto.
Qed.
Lemma multiple_safe : forall mn mx m d, mag_ok wideZ mn -> mag_ok wideZ mx -> val mn <= val mx -> fin m -> / 128 <= val m ->
  exists r, generateMultipleOf mn mx m d = Ok r.
Proof.
  intros mn mx m d Hn Hx L Fm Hm. pose proof (count_safe mn mx m Hn Hx L Fm Hm) as C. unfold generateMultipleOf.
  destruct (countMultiplesInRange mn mx m =? 0)%Z eqn:E; [eauto|]. apply Z.eqb_neq in E.
  destruct (randomInt_safe (countMultiplesInRange mn mx m) d) as [r ->]; [lia|]. cbn [bind]. eauto.
Qed.
Theorem number_safe : forall n i g d,
  obnd bigB (sMinimum n) -> obnd bigB (sMaximum n) -> obnd bigB (sExclusiveMinimum n) -> obnd bigB (sExclusiveMaximum n) ->
  (forall m, sMultipleOf n = Some m -> fin m /\ / 128 <= val m <= IZR (2 ^ 40)) ->
  parseNumber n i = Good (NGen g) -> exists v, numberGenerate g d = Ok v.
Proof.
  intros n i g d N1 N2 N3 N4 N5 H. unfold parseNumber in H. destruct (resolveMinMax n i) as [[mn mx]|e] eqn:R; [|discriminate H].
  destruct (feqb mn mx); [discriminate H|]. injection H as <-. unfold numberGenerate, numberRaw. cbn [nInt nMin nMax nMul].
  destruct (sMultipleOf n) as [m|] eqn:M; cbn [get_or].
  - destruct (N5 m eq_refl) as [Fm Bm].
    assert (O : obound (IZR (2 ^ 40)) (sMultipleOf n)) by (rewrite M; cbn [obound]; split; auto; rewrite Rabs_pos_eq; lra).
    destruct (resolve_wide n i mn mx N1 N2 N3 N4 O R) as [Wn Wx].
    assert (NF : numFinite n).
    { unfold numFinite. assert (G : forall o, obnd bigB o -> ofin o) by (intros [x|]; [intros [X _]; exact X|auto]).
      repeat split; auto. rewrite M. exact Fm. }
    destruct (resolve_spec n i mn mx NF R) as (_ & _ & _ & L & _).
    destruct (multiple_safe mn mx m d Wn Wx L Fm (proj1 Bm)) as [r Hr].
    destruct (feqb m fzero); destruct i; rewrite ?Hr; cbn [bind]; eauto.
  - change (feqb fzero fzero) with true. destruct i; cbn [bind]; eauto.
Qed.

(* ------------------------------------------------------------------ bounds under negation *)
Lemma bnd_fin : forall x, bnd bigB x -> fin x. Proof. intros x [A _]. exact A. Qed.
Lemma bnd_upper : forall x, bnd bigB x -> val lowerBound < val x < val upperBound.
Proof.
  intros x [_ A]. pose proof wide_upper as U. destruct lower_val as [_ VL]. apply Rabs_le_inv in A.
  assert (bigB <= IZR wideZ) by (apply IZR_le; unfold wideZ; lia). lra.
Qed.
Lemma minToNil_bnd : forall x i, bnd bigB x -> obnd bigB (minToNilF x (excl_off i)).
Proof. intros x i H. unfold minToNilF. destruct (fleb _ _); cbn [obnd]; auto. Qed.
Lemma maxToNil_bnd : forall x i, bnd bigB x -> obnd bigB (maxToNilF x (excl_off i)).
Proof. intros x i H. unfold maxToNilF. destruct (fleb _ _); cbn [obnd]; auto. Qed.
Lemma minToNil_lower : forall i, minToNilF lowerBound (excl_off i) = None.
Proof.
  intros i. unfold minToNilF.
  assert (K : fleb lowerBound (fadd lowerBound (fmul (excl_off i) (fofZ 10))) = true) by (destruct i; vm_compute; reflexivity).
  rewrite K. reflexivity.
Qed.
Lemma maxToNil_upper : forall i, maxToNilF upperBound (excl_off i) = None.
Proof.
  intros i. unfold maxToNilF.
  assert (K : fleb (fsub upperBound (fmul (excl_off i) (fofZ 10))) upperBound = true) by (destruct i; vm_compute; reflexivity).
  rewrite K. reflexivity.
Qed.
Lemma min_or : forall o i, obnd bigB o -> obnd bigB (minToNilF (get_or o lowerBound) (excl_off i)).
Proof. intros [x|] i H; cbn [get_or]; [apply minToNil_bnd; exact H|rewrite minToNil_lower; exact I]. Qed.
Lemma max_or : forall o i, obnd bigB o -> obnd bigB (maxToNilF (get_or o upperBound) (excl_off i)).
Proof. intros [x|] i H; cbn [get_or]; [apply maxToNil_bnd; exact H|rewrite maxToNil_upper; exact I]. Qed.
Lemma or_range : forall o d, obnd bigB o -> fin d -> val lowerBound <= val d <= val upperBound ->
  fin (get_or o d) /\ val lowerBound <= val (get_or o d) <= val upperBound.
Proof. intros [x|] d H Fd Bd; cbn [get_or]; [|auto]. pose proof (bnd_upper x H). split; [apply H|lra]. Qed.
Theorem bounds_bnd : forall mn xmn mx xmx nmn nxmn nmx nxmx i a b c d w,
  obnd bigB mn -> obnd bigB xmn -> obnd bigB mx -> obnd bigB xmx -> obnd bigB nmn -> obnd bigB nxmn -> obnd bigB nmx -> obnd bigB nxmx ->
  boundsFloat mn xmn mx xmx nmn nxmn nmx nxmx (excl_off i) = (a, b, c, d, w) -> obnd bigB a /\ obnd bigB b.
Proof.
  intros mn xmn mx xmx nmn nxmn nmx nxmx i a b c d w H1 H2 H3 H4 H5 H6 H7 H8 H. unfold boundsFloat in H.
  pose proof (fmax_bnd _ _ H1 (proj1 (addIf_bnd xmn i H2))) as X1. pose proof (fmin_bnd _ _ H3 (proj2 (addIf_bnd xmx i H4))) as X2.
  pose proof (fmax_bnd _ _ H5 (proj1 (addIf_bnd nxmn i H6))) as Y1. pose proof (fmin_bnd _ _ H7 (proj2 (addIf_bnd nxmx i H8))) as Y2.
  set (x1 := maxFloatPtr mn _) in *. set (x2 := minFloatPtr mx _) in *. set (y1 := maxFloatPtr nmn _) in *. set (y2 := minFloatPtr nmx _) in *.
  clearbody x1 x2 y1 y2. clear H1 H2 H3 H4 H5 H6 H7 H8.
  destruct (off_abs i) as (O1 & _ & _). destruct (excl_off_val i) as [Fo _].
  destruct lower_val as [FL VL]. destruct upper_fin as [FU [PU _]].
  destruct (or_range x1 lowerBound X1 FL) as [R1 B1]; [lra|]. destruct (or_range x2 upperBound X2 FU) as [R2 B2]; [lra|].
  destruct (or_range y1 lowerBound Y1 FL) as [R3 B3]; [lra|]. destruct (or_range y2 upperBound Y2 FU) as [R4 B4]; [lra|].
  assert (M1 := min_or x1 i X1). assert (M2 := max_or x2 i X2).
  assert (G : (let x1v := get_or x1 lowerBound in let x2v := get_or x2 upperBound in let y1v := get_or y1 lowerBound in let y2v := get_or y2 upperBound in
          if fltb y2v x1v || fltb x2v y1v then (minToNilF x1v (excl_off i), maxToNilF x2v (excl_off i), None, None, false)
          else if fleb y1v x1v && fleb x2v y2v then (minToNilF x1v (excl_off i), maxToNilF x2v (excl_off i), None, None, true)
          else if fleb y1v x1v && fltb y2v x2v then (minToNilF (fadd y2v (excl_off i)) (excl_off i), maxToNilF x2v (excl_off i), None, None, false)
          else if fltb x1v y1v && fleb x2v y2v then (minToNilF x1v (excl_off i), maxToNilF (fsub y1v (excl_off i)) (excl_off i), None, None, false)
          else (minToNilF x1v (excl_off i), maxToNilF (fsub y1v (excl_off i)) (excl_off i),
                minToNilF (fadd y2v (excl_off i)) (excl_off i), maxToNilF x2v (excl_off i), false)) = (a, b, c, d, w) -> obnd bigB a /\ obnd bigB b).
  { clear H. cbv zeta. intros H.
    destruct (_ || _). { rewrite !pair_equal_spec in H. destruct H as [[[[<- <-] _] _] _]. exact (conj M1 M2). }
    destruct (fleb (get_or y1 lowerBound) (get_or x1 lowerBound)) eqn:L1; cbn [andb] in H.
    - destruct (fleb (get_or x2 upperBound) (get_or y2 upperBound)) eqn:L2. { rewrite !pair_equal_spec in H. destruct H as [[[[<- <-] _] _] _]. exact (conj M1 M2). }
      destruct (fltb (get_or y2 upperBound) (get_or x2 upperBound)) eqn:L3.
      + rewrite !pair_equal_spec in H. destruct H as [[[[<- <-] _] _] _]. split; [|exact M2].
        destruct y2 as [y|]; cbn [get_or] in *; [apply minToNil_bnd; apply near_add; [exact Y2|exact Fo|exact O1]|].
        exfalso. apply fltb_lt in L3; [lra|exact R4|exact R2].
      + exfalso. apply (fltb_ge _ _ R4 R2) in L3. apply (fleb_le _ _ R2 R4) in L3. rewrite L3 in L2. discriminate L2.
    - assert (V : val (get_or x1 lowerBound) < val (get_or y1 lowerBound)).
      { apply Rnot_le_lt. intros C. apply (fleb_le _ _ R3 R1) in C. rewrite C in L1. discriminate L1. }
      assert (Y : bnd bigB (get_or y1 lowerBound)) by (destruct y1; cbn [get_or] in *; [exact Y1|lra]).
      assert (M3 : obnd bigB (maxToNilF (fsub (get_or y1 lowerBound) (excl_off i)) (excl_off i))) by (apply maxToNil_bnd; apply near_sub; [exact Y|exact Fo|exact O1]).
      destruct (_ && _); rewrite !pair_equal_spec in H; destruct H as [[[[<- <-] _] _] _]; exact (conj M1 M3). }
  destruct y1 as [y1|], y2 as [y2|]; [| | |rewrite !pair_equal_spec in H; destruct H as [[[[<- <-] _] _] _]; exact (conj X1 X2)];
    (destruct x1 as [x1|], x2 as [x2|]; [exact (G H)|exact (G H)|exact (G H)|]); clear G;
    rewrite !pair_equal_spec in H; destruct H as [[[[<- <-] _] _] _]; (split; [|try exact I]); try exact I;
    first [apply near_add; [exact Y2|exact Fo|exact O1]|apply near_sub; [exact Y1|exact Fo|exact O1]].
Qed.

(* ------------------------------------------------------------------ related multipleOf values *)
Lemma fmod_exact : forall x y, fin x -> fin y -> val x <> 0 -> val y <> 0 -> isMultiple (val x) (val y) -> feqb (fmod x y) fzero = true.
Proof.
  intros x y Fx Fy Nx Ny [k Hk]. destruct x as [s|s| |s m e H]; try discriminate Fx; [exfalso; apply Nx; reflexivity|].
  destruct y as [s'|s'| |s' m' e' H']; try discriminate Fy; [exfalso; apply Ny; reflexivity|].
  rewrite !B2R_pos in Hk. unfold fmod.
  assert (Z0 : ((Zpos m * 2 ^ (e - Z.min e e')) mod (Zpos m' * 2 ^ (e' - Z.min e e')) = 0)%Z).
  { rewrite (bpow_shift (Z.min e e') e), (bpow_shift (Z.min e e') e') in Hk by lia.
    assert (E : (Zpos m * 2 ^ (e - Z.min e e') = (if s then -1 else 1) * k * (if s' then -1 else 1) * (Zpos m' * 2 ^ (e' - Z.min e e')))%Z).
    { apply eq_IZR. rewrite !mult_IZR. apply (Rmult_eq_reg_r (bpow radix2 (Z.min e e'))); [|pose proof (bpow_gt_0 radix2 (Z.min e e')); lra].
      destruct s, s'; rewrite <- ?Pos2Z.opp_pos, ?opp_IZR in *; lra. }
    rewrite E. apply Z_mod_mult. }
  rewrite Z0. destruct s; reflexivity.
Qed.
Lemma hcf_chain : forall (ms : f64 -> Prop),
  (forall m, ms m -> fin m /\ / 128 <= val m) -> (forall a b, ms a -> ms b -> isMultiple (val a) (val b) \/ isMultiple (val b) (val a)) ->
  forall a b, (forall m, a = Some m -> ms m) -> (forall m, b = Some m -> ms m) -> forall m, findHcf a b = Some m -> ms m.
Proof.
  intros ms H1 H2 [a|] b Ha Hb m H; cbn [findHcf] in H; [|exact (Hb m H)].
  destruct (feqb a fzero); [exact (Hb m H)|]. destruct b as [b|]; [|exact (Ha m H)].
  destruct (feqb b fzero); [exact (Ha m H)|].
  pose proof (Ha a eq_refl) as A. pose proof (Hb b eq_refl) as B. destruct (H1 a A) as [Fa Pa], (H1 b B) as [Fb Pb].
  destruct (feqb (fmod a b) fzero) eqn:E1; [exact (Ha m H)|]. destruct (feqb (fmod b a) fzero) eqn:E2; [exact (Hb m H)|].
  exfalso. assert (Na : val a <> 0) by lra. assert (Nb : val b <> 0) by lra.
  destruct (H2 a b A B) as [M|M].
  - rewrite (fmod_exact a b Fa Fb Na Nb M) in E1. discriminate E1.
  - rewrite (fmod_exact b a Fb Fa Nb Na M) in E2. discriminate E2.
Qed.
