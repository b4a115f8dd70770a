(* Range and divisibility of generated numbers (number.go). *)
From Coq Require Import ZArith Reals Lia Lra Bool List String.
From Flocq Require Import Core BinarySingleNaN.
From Verif Require Import Base Float64 Util Rand Json Schema Options Number FloatFacts NumberFacts.
Open Scope R_scope.

Lemma Zdiv_floor : forall a b, (0 < b)%Z -> Zfloor (IZR a / IZR b) = (a / b)%Z.
Proof. intros. apply Zfloor_div. lia. Qed.

(* the rounded quotient of two floats whose ratio is a / b has the floor of a / b *)
Lemma floor_div_ratio : forall x y a b, fin x -> val y <> 0 -> val x / val y = IZR a / IZR b ->
  (Z.abs a <= 2 ^ 52)%Z -> (1 <= b <= 2 ^ 53)%Z ->
  fin (ffloor (fdiv x y)) /\ val (ffloor (fdiv x y)) = IZR (a / b).
Proof.
  intros x y a b Fx Ny Vxy Ha Hb.
  assert (Bp : 0 < IZR b) by (apply IZR_lt; lia).
  set (q := IZR a / IZR b).
  assert (Hd : (Z.abs (a / b) <= 2 ^ 52)%Z).
  { apply Z.abs_le. split.
    - apply Z.div_le_lower_bound; nia.
    - apply Z.div_le_upper_bound; nia. }
  assert (Q1 : IZR (a / b) <= q).
  { rewrite <- Zdiv_floor by lia. apply Zfloor_lb. }
  assert (Q2 : q <= IZR (a / b) + 1 - / IZR b).
  { unfold q. apply Rmult_le_reg_r with (IZR b); auto.
    replace (IZR a / IZR b * IZR b) with (IZR a) by (field; lra).
    replace ((IZR (a / b) + 1 - / IZR b) * IZR b) with (IZR (a / b) * IZR b + IZR b - 1) by (field; lra).
    rewrite <- mult_IZR, <- plus_IZR, <- minus_IZR. apply IZR_le.
    pose proof (Z.mod_pos_bound a b). pose proof (Z.div_mod a b). lia. }
  assert (R1 : IZR (a / b) <= rnd q). { apply rnd_ge; auto. apply F64_IZR. lia. }
  assert (Qa : Rabs q <= IZR (2 ^ 52) * / IZR b).
  { unfold q, Rdiv. rewrite Rabs_mult, (Rabs_pos_eq (/ IZR b)) by (left; now apply Rinv_0_lt_compat).
    apply Rmult_le_compat_r. left; now apply Rinv_0_lt_compat. rewrite <- abs_IZR. now apply IZR_le. }
  assert (IB : 0 < / IZR b <= 1).
  { split. now apply Rinv_0_lt_compat. rewrite <- Rinv_1. apply Rinv_le. lra. apply IZR_le; lia. }
  assert (R2 : rnd q < IZR (a / b) + 1).
  { destruct (Req_dec q 0) as [E|E].
    - rewrite E, rnd_0. lra.
    - destruct (Z.eq_dec a 0) as [->|Na]. { elim E. unfold q. lra. }
      assert (Ql : bpow radix2 (-1022) <= Rabs q).
      { unfold q, Rdiv. rewrite Rabs_mult, (Rabs_pos_eq (/ IZR b)) by lra.
        assert (1 <= Rabs (IZR a)). { rewrite <- abs_IZR. apply IZR_le. lia. }
        assert (bpow radix2 (-1022) <= / IZR b).
        { apply Rle_trans with (bpow radix2 (-53)). apply bpow_le; lia.
          change (bpow radix2 (-53)) with (/ IZR (2 ^ 53)). apply Rinv_le; auto. apply IZR_le; lia. }
        apply Rle_trans with (1 * / IZR b). lra. apply Rmult_le_compat_r; lra. }
      pose proof (error_le_half_ulp radix2 fexp64 (fun z => negb (Z.even z)) q) as Er.
      pose proof (ulp_FLT_le radix2 (-1074) 53 q) as Ul.
      assert (Ul' : ulp radix2 fexp64 q <= Rabs q * bpow radix2 (1 - 53)) by (apply Ul; simpl; auto).
      apply Rabs_le_inv in Er.
      assert (Hb52 : bpow radix2 (1 - 53) = / IZR (2 ^ 52)) by reflexivity.
      rewrite Hb52 in Ul'.
      assert (Rabs q * / IZR (2 ^ 52) <= / IZR b).
      { apply Rle_trans with (IZR (2 ^ 52) * / IZR b * / IZR (2 ^ 52)).
        - apply Rmult_le_compat_r; auto. left. apply Rinv_0_lt_compat. apply IZR_lt; lia.
        - right. field. split; [lra|]. apply IZR_neq; lia. }
      lra. }
  assert (Zf : Zfloor (rnd q) = (a / b)%Z). { apply Zfloor_imp. rewrite plus_IZR. lra. }
  destruct (fdiv_correct x y Fx) as [Vd Fd].
  - exact Ny.
  - rewrite Vxy. fold q. apply Rle_lt_trans with (IZR (2 ^ 52)).
    + apply abs_rnd_le. apply F64_IZR; lia. apply Rle_trans with (1 := Qa).
      rewrite <- (Rmult_1_r (IZR (2 ^ 52))) at 2. apply Rmult_le_compat_l; [apply IZR_le; lia|lra].
    + change (IZR (2 ^ 52)) with (bpow radix2 52). apply bpow_lt; lia.
  - rewrite Vxy in Vd. fold q in Vd. destruct (ffloor_val _ Fd) as [A B]. split; auto. rewrite A, Vd, Zf. reflexivity.
Qed.

Lemma floor_div_exact : forall x y a b, fin x -> fin y -> val x = IZR a -> val y = IZR b ->
  (Z.abs a <= 2 ^ 52)%Z -> (1 <= b <= 2 ^ 53)%Z ->
  fin (ffloor (fdiv x y)) /\ val (ffloor (fdiv x y)) = IZR (a / b).
Proof.
  intros x y a b Fx Fy Vx Vy Ha Hb. apply floor_div_ratio; auto.
  - rewrite Vy. apply IZR_neq. lia.
  - now rewrite Vx, Vy.
Qed.

(* ---------- specification vocabulary ---------- *)

(* the number a JSON value denotes *)
Definition num_value (v : json) : option R :=
  match v with
  | JInt z => Some (IZR z)
  | JFloat f => if is_finite f then Some (B2R f) else None
  | _ => None
  end.

(* number and draw: what the API returns for a number/integer schema *)
Definition producesNumber (n : schemaNode) (integer : bool) (d : Z) (v : json) : Prop :=
  match parseNumber n integer with
  | Good (NConst f) => v = JFloat f
  | Good (NGen g) => numberGenerate g d = Ok v
  | Bad _ => False
  end.

Lemma parseNumber_inv : forall n i p, parseNumber n i = Good p ->
  exists mn mx, resolveMinMax n i = Good (mn, mx) /\
    ((feqb mn mx = true /\ p = NConst mn) \/
     (feqb mn mx = false /\ p = NGen (mkNum i mn mx (get_or (sMultipleOf n) fzero)))).
Proof.
  intros n i p H. unfold parseNumber in H. destruct (resolveMinMax n i) as [[mn mx]|]; [|discriminate].
  exists mn, mx. split; auto. destruct (feqb mn mx); injection H as <-; auto.
Qed.

Lemma is_zero_val : forall x, fin x -> (is_zero x = true <-> val x = 0).
Proof.
  intros x H. split; intros K.
  - destruct x; try discriminate. reflexivity.
  - destruct x as [s|s| |s m e B]; try discriminate H; auto.
    exfalso. unfold val, B2R in K. apply eq_0_F2R in K. destruct s; discriminate K.
Qed.

(* an integer-valued raw result of moderate size is returned as that int *)
Lemma finish_int : forall g r z, nInt g = true -> fin r -> val r = IZR z -> (Z.abs z <= 2 ^ 53)%Z ->
  numberFinish g r = JInt z.
Proof.
  intros g r z Hi Fr Vr Hz. unfold numberFinish. rewrite Hi. destruct (is_zero r) eqn:E.
  - apply is_zero_val in E; auto. rewrite Vr in E. apply eq_IZR in E. now subst.
  - f_equal. apply int_of_f64_val; auto. lia.
Qed.

Lemma integral_mag : forall x M, integral x -> mag_ok M x -> exists z, val x = IZR z /\ (Z.abs z <= M)%Z.
Proof.
  intros x M [z Hz] [_ H]. exists z. split; auto. rewrite Hz, <- abs_IZR in H. now apply le_IZR.
Qed.

Lemma countMultiples_exact : forall mn mx m a b c, fin mn -> fin mx -> fin m ->
  val mn = IZR a -> val mx = IZR b -> val m = IZR c ->
  (Z.abs a <= 2 ^ 51)%Z -> (Z.abs b <= 2 ^ 51)%Z -> (1 <= c <= 2 ^ 40)%Z ->
  countMultiplesInRange mn mx m = (b / c - a / c)%Z.
Proof.
  intros mn mx m a b c F1 F2 F3 V1 V2 V3 Ha Hb Hc. unfold countMultiplesInRange.
  destruct (floor_div_exact mx m b c) as [A1 A2]; auto; try lia.
  destruct (floor_div_exact mn m a c) as [B1 B2]; auto; try lia.
  assert (Db : (Z.abs (b / c) <= 2 ^ 51)%Z).
  { apply Z.abs_le. split. apply Z.div_le_lower_bound; nia. apply Z.div_le_upper_bound; nia. }
  assert (Da : (Z.abs (a / c) <= 2 ^ 51)%Z).
  { apply Z.abs_le. split. apply Z.div_le_lower_bound; nia. apply Z.div_le_upper_bound; nia. }
  rewrite (int_of_f64_val _ (b / c)); auto; [|lia].
  rewrite (int_of_f64_val _ (a / c)); auto; [|lia].
  destruct (feqb mn fzero) eqn:E.
  - apply feqb_eq in E; auto; [|reflexivity]. rewrite V1, val_fzero in E. apply eq_IZR in E. subst a.
    rewrite Z.div_0_l by lia. lia.
  - apply wrap64_id. lia.
Qed.

Lemma genMultiple_exact : forall mn mx m a b c d, fin mn -> fin mx -> fin m ->
  val mn = IZR a -> val mx = IZR b -> val m = IZR c ->
  (Z.abs a <= 2 ^ 51)%Z -> (Z.abs b <= 2 ^ 51)%Z -> (1 <= c <= 2 ^ 40)%Z -> (a <= b)%Z ->
  (b / c - a / c <> 0)%Z ->
  exists r k, generateMultipleOf mn mx m d = Ok r /\ fin r /\ val r = IZR (k * c) /\ (a < k * c <= b)%Z.
Proof.
  intros mn mx m a b c d F1 F2 F3 V1 V2 V3 Ha Hb Hc Hab Hn. unfold generateMultipleOf.
  rewrite (countMultiples_exact mn mx m a b c) by auto.
  destruct (Z.eqb_spec (b / c - a / c) 0); [contradiction|].
  assert (Hle : (a / c <= b / c)%Z) by (apply Z.div_le_mono; lia).
  assert (Db : (Z.abs (b / c) <= 2 ^ 51)%Z).
  { apply Z.abs_le. split. apply Z.div_le_lower_bound; nia. apply Z.div_le_upper_bound; nia. }
  assert (Da : (Z.abs (a / c) <= 2 ^ 51)%Z).
  { apply Z.abs_le. split. apply Z.div_le_lower_bound; nia. apply Z.div_le_upper_bound; nia. }
  destruct (randomInt_spec 1 (b / c - a / c) d) as (k & Hk & K1 & K2); try lia.
  rewrite Hk. cbn [bind].
  assert (K3 : (1 <= k <= b / c - a / c)%Z) by lia.
  pose proof (Z.div_mod a c). pose proof (Z.mod_pos_bound a c). pose proof (Z.div_mod b c). pose proof (Z.mod_pos_bound b c).
  destruct (floor_div_exact mn m a c) as [B1 B2]; auto; try lia.
  destruct (fofZ_exact k) as [C1 C2]; [lia|].
  assert (E1 : (c * (a / c) = a / c * c)%Z) by ring. assert (E2 : (c * (b / c) = b / c * c)%Z) by ring.
  assert (Lb : (Z.abs (a / c * c) <= 2 ^ 52)%Z) by lia.
  assert (K4 : (1 * c <= k * c)%Z) by (apply Z.mul_le_mono_nonneg_r; lia).
  assert (K5 : (k * c <= (b / c - a / c) * c)%Z) by (apply Z.mul_le_mono_nonneg_r; lia).
  rewrite Z.mul_sub_distr_r in K5.
  assert (Kb : (0 <= k * c <= 2 ^ 52 + 2 ^ 40)%Z) by lia.
  assert (Sb : (a < a / c * c + k * c <= b)%Z) by lia.
  destruct (fmul_correct (ffloor (fdiv mn m)) m) as [M1 M2]; auto.
  { rewrite B2, V3, <- mult_IZR, rnd_id by (apply F64_IZR; lia). rewrite <- abs_IZR. apply small_ov; lia. }
  rewrite B2, V3, <- mult_IZR, rnd_id in M1 by (apply F64_IZR; lia).
  destruct (fmul_correct (fofZ k) m) as [N1 N2]; auto.
  { rewrite C1, V3, <- mult_IZR, rnd_id by (apply F64_IZR; lia). rewrite <- abs_IZR. apply small_ov; lia. }
  rewrite C1, V3, <- mult_IZR, rnd_id in N1 by (apply F64_IZR; lia).
  destruct (fadd_correct (fmul (ffloor (fdiv mn m)) m) (fmul (fofZ k) m)) as [P1 P2]; auto.
  { rewrite M1, N1, <- plus_IZR, rnd_id by (apply F64_IZR; lia). rewrite <- abs_IZR. apply small_ov; lia. }
  rewrite M1, N1, <- plus_IZR, rnd_id in P1 by (apply F64_IZR; lia).
  exists (fadd (fmul (ffloor (fdiv mn m)) m) (fmul (fofZ k) m)), (a / c + k)%Z.
  repeat split; auto; try lia. rewrite P1. f_equal. ring.
Qed.

(* what parseNumber's checks guarantee about multipleOf for integers *)
Lemma check_int : forall mn mx m, fin m -> checkMultipleOf true mn mx (Some m) = Good (mn, mx) ->
  0 <= val m /\ integral m /\ countMultiplesInRange mn mx m <> 0%Z.
Proof.
  intros mn mx m Fm H. unfold checkMultipleOf in H.
  destruct (fltb m fzero) eqn:E1; [discriminate|].
  destruct (negb (feqb m fzero) && fltb m infinitesimal); [discriminate|].
  destruct (true && negb (feqb (ftrunc m) m)) eqn:E2; [discriminate|].
  destruct (Z.eqb_spec (countMultiplesInRange mn mx m) 0); [discriminate|].
  apply fltb_ge in E1; auto; [|reflexivity]. split; [exact E1|].
  split; auto. simpl in E2. apply negb_false_iff in E2. destruct (ftrunc_val m Fm) as [A B].
  apply feqb_eq in E2; auto. exists (Ztrunc (val m)). congruence.
Qed.

(* Integer schemas: the value is an int between the resolved limits, and a multiple of multipleOf *)
Lemma int_main : forall n d p, numSmall n -> parseNumber n true = Good p ->
  exists v z mn mx, resolveMinMax n true = Good (mn, mx) /\
    (match p with NConst f => v = JFloat f | NGen g => numberGenerate g d = Ok v end) /\
    num_value v = Some (IZR z) /\ val mn <= IZR z <= val mx /\
    (forall m, sMultipleOf n = Some m -> val m <> 0 -> exists k c, val m = IZR c /\ z = (k * c)%Z) /\
    (match p with NConst f => True | NGen _ => v = JInt z end).
Proof.
  intros n d p HS HP. pose proof (numSmall_fin _ HS) as HF.
  destruct (parseNumber_inv _ _ _ HP) as (mn & mx & HR & HC).
  destruct (resolve_spec _ _ _ _ HF HR) as (F1 & F2 & _ & Hle & _ & HI & _ & _ & _ & _ & CM).
  destruct (resolve_mag _ _ _ _ HS HR) as [M1 M2].
  destruct (HI eq_refl) as [I1 I2].
  destruct (integral_mag _ _ I1 M1) as (a & Va & Ba). destruct (integral_mag _ _ I2 M2) as (b & Vb & Bb).
  assert (Hab : (a <= b)%Z) by (apply le_IZR; lra).
  destruct HC as [[E ->]|[E ->]].
  - exists (JFloat mn), a, mn, mx. simpl. unfold val, fin in *. rewrite F1, Va. repeat split; auto; try lra.
    intros m Hm Hz. exfalso.
    assert (Fm : fin m). { destruct HF as (_ & _ & _ & _ & K). rewrite Hm in K. exact K. }
    rewrite Hm in CM. destruct (check_int _ _ _ Fm CM) as (P & [c Vc] & CN). unfold val in Vc, P.
    assert (Hc : (1 <= c <= 2 ^ 40)%Z).
    { destruct HS as (_ & _ & _ & _ & K). rewrite Hm in K. simpl in K. destruct K as [_ K]. unfold val in K.
      rewrite Vc in *. rewrite <- abs_IZR in K. apply le_IZR in K.
      assert (c <> 0%Z) by (intro; subst; lra). apply le_IZR in P. lia. }
    apply feqb_eq in E; auto. unfold val in E. rewrite Va, Vb in E. apply eq_IZR in E. subst b.
    rewrite (countMultiples_exact mn mx m a a c) in CN by auto. lia.
  - set (g := mkNum true mn mx (get_or (sMultipleOf n) fzero)).
    assert (Fm : fin (get_or (sMultipleOf n) fzero)).
    { destruct HF as (_ & _ & _ & _ & K). destruct (sMultipleOf n); auto. reflexivity. }
    assert (Main : exists r z, numberRaw g d = Ok r /\ fin r /\ val r = IZR z /\ (a <= z <= b)%Z /\
      (forall m, sMultipleOf n = Some m -> val m <> 0 -> exists k c, val m = IZR c /\ z = (k * c)%Z)).
    { unfold numberRaw. simpl nInt. simpl nMul. simpl nMin. simpl nMax. cbv iota.
      destruct (feqb (get_or (sMultipleOf n) fzero) fzero) eqn:EM.
      - destruct (randomFloat_range mn mx d) as [FR RR]; auto.
        { apply Rle_lt_trans with (IZR (2 ^ 52)).
          apply abs_rnd_le. apply F64_IZR; lia. rewrite Va, Vb, <- minus_IZR, <- abs_IZR. apply IZR_le; lia.
          apply small_ov; lia. }
        destruct (fround_val _ FR) as [VR FR']. rewrite Va, Vb in RR. apply ZnearestA_between in RR.
        eexists _, _. split; [reflexivity|]. split; [exact FR'|]. split; [exact VR|]. split; auto.
        intros m Hm Hz. rewrite Hm in EM, Fm. simpl in EM, Fm. apply feqb_eq in EM; auto. contradiction. reflexivity.
      - destruct (sMultipleOf n) as [m|] eqn:Em; [|discriminate EM]. simpl in EM, Fm. simpl get_or.
        destruct (check_int _ _ _ Fm CM) as (P & [c Vc] & CN).
        apply feqb_neq in EM; auto; [|reflexivity]. rewrite val_fzero in EM.
        assert (Hc : (1 <= c <= 2 ^ 40)%Z).
        { destruct HS as (_ & _ & _ & _ & K). rewrite Em in K. simpl in K. destruct K as [_ K].
          rewrite Vc in *. rewrite <- abs_IZR in K. apply le_IZR in K.
          assert (c <> 0%Z) by (intro; subst; lra). apply le_IZR in P. lia. }
        rewrite (countMultiples_exact mn mx m a b c) in CN by auto.
        destruct (genMultiple_exact mn mx m a b c d) as (r & k & G1 & G2 & G3 & G4); auto.
        exists r, (k * c)%Z. repeat split; auto; try lia.
        intros m' K _. injection K as <-. eauto. }
    destruct Main as (r & z & R1 & R2 & R3 & R4 & R5).
    exists (JInt z), z, mn, mx. split; auto. split.
    { unfold numberGenerate. rewrite R1. simpl. f_equal. apply finish_int; auto. lia. }
    split; auto. split.
    { rewrite Va, Vb. split; apply IZR_le; lia. }
    split; auto.
Qed.

(* Number schemas without multipleOf: the value lies between the resolved limits *)
Lemma num_main : forall n d p, numFinite n -> (sMultipleOf n = None \/ exists m, sMultipleOf n = Some m /\ val m = 0) ->
  parseNumber n false = Good p ->
  exists v x mn mx, resolveMinMax n false = Good (mn, mx) /\
    (match p with NConst f => v = JFloat f | NGen g => numberGenerate g d = Ok v end) /\
    num_value v = Some x /\ val mn <= x <= val mx.
Proof.
  intros n d p HF HM HP.
  destruct (parseNumber_inv _ _ _ HP) as (mn & mx & HR & HC).
  destruct (resolve_spec _ _ _ _ HF HR) as (F1 & F2 & Hl & Hle & Hu & _).
  destruct HC as [[E ->]|[E ->]].
  - exists (JFloat mn), (val mn), mn, mx. simpl. unfold val, fin in *. rewrite F1. repeat split; auto; lra.
  - assert (Z0 : feqb (get_or (sMultipleOf n) fzero) fzero = true).
    { destruct HF as (_ & _ & _ & _ & K). destruct HM as [EE|(m & EE & V)]; rewrite EE in *.
      reflexivity. cbn [get_or ofin] in *. apply feqb_eq; [exact K|reflexivity|exact V]. }
    destruct (randomFloat_range mn mx d) as [FR RR]; auto.
    { destruct upper_fin as [_ U]. destruct lower_val as [_ L].
      apply Rle_lt_trans with (bpow radix2 1016).
      - apply abs_rnd_le. apply generic_format_bpow. rewrite fexp64_FLT; unfold FLT_exp; lia.
        rewrite Rabs_pos_eq by lra.
        replace (bpow radix2 1016) with (2 * bpow radix2 1015). lra.
        change 1016%Z with (1 + 1015)%Z. rewrite bpow_plus. reflexivity.
      - apply bpow_lt; lia. }
    unfold numberGenerate, numberRaw. simpl nInt. simpl nMul. simpl nMin. simpl nMax. cbv iota. rewrite Z0. cbn [bind].
    exists (numberFinish (mkNum false mn mx (get_or (sMultipleOf n) fzero)) (randomFloat mn mx d)), (val (randomFloat mn mx d)), mn, mx.
    repeat split; auto; try tauto.
    unfold numberFinish. simpl nInt. simpl nMul. rewrite Z0. destruct (is_zero _) eqn:Ez.
    + apply is_zero_val in Ez; auto. rewrite Ez. reflexivity.
    + cbv iota. simpl. unfold fin in FR. now rewrite FR.
Qed.

(* ---------- retry budget ---------- *)

Lemma budget_range : forall o c base,
  (Z.abs (oCutoffGenerationSteps o) <= 2 ^ 51)%Z -> (Z.abs (oMaximumGenerationSteps o) <= 2 ^ 51)%Z ->
  (0 <= c <= 2 ^ 51)%Z -> (base <= 2 ^ 53)%Z ->
  (1 <= scaledRetryBudget o c base <= Z.max 1 base)%Z.
Proof.
  intros o c base HC HM Hc Hb. unfold scaledRetryBudget.
  destruct (Z.leb_spec base 0); [lia|].
  destruct (shouldMinimize o c) eqn:EM; simpl; [|lia].
  destruct (shouldCutoff o c) eqn:EC; [lia|].
  unfold shouldMinimize in EM. apply andb_prop in EM as [EM1 EM2]. apply Z.ltb_lt in EM1, EM2.
  set (C := oCutoffGenerationSteps o) in *. set (M := oMaximumGenerationSteps o) in *.
  destruct (fofZ_exact (C - c)) as [V1 F1]; [lia|]. destruct (fofZ_exact (C - M)) as [V2 F2]; [lia|].
  destruct (fleb (fofZ (C - M)) fzero) eqn:EW; [lia|].
  assert (W : (0 < C - M)%Z).
  { destruct (Z_lt_le_dec 0 (C - M)); auto. exfalso.
    assert (K : fleb (fofZ (C - M)) fzero = true). { apply fleb_le; auto. reflexivity. rewrite V2, val_fzero. now apply IZR_le. }
    congruence. }
  assert (Rm : (0 <= C - c <= C - M)%Z).
  { unfold shouldCutoff in EC. fold C in EC. apply andb_false_iff in EC. rewrite !Z.ltb_ge in EC. lia. }
  assert (Wp : 0 < IZR (C - M)) by (apply IZR_lt; lia).
  assert (Q : 0 <= IZR (C - c) / IZR (C - M) <= 1).
  { split. apply Rmult_le_pos. apply IZR_le; lia. left; now apply Rinv_0_lt_compat.
    apply Rmult_le_reg_r with (IZR (C - M)); auto. unfold Rdiv. rewrite Rmult_assoc, Rinv_l by lra.
    rewrite Rmult_1_r, Rmult_1_l. apply IZR_le; lia. }
  assert (RQ : 0 <= rnd (IZR (C - c) / IZR (C - M)) <= 1).
  { split. rewrite <- rnd_0. apply rnd_le; tauto. apply rnd_le_gen. apply (F64_IZR 1). lia. tauto. }
  destruct (fdiv_correct (fofZ (C - c)) (fofZ (C - M))) as [V3 F3]; auto.
  { rewrite V2. lra. }
  { rewrite V1, V2, Rabs_pos_eq by tauto. apply Rle_lt_trans with 1. tauto. apply (small_ov 1). lia. }
  rewrite V1, V2 in V3.
  destruct (fofZ_exact base) as [V4 F4]; [lia|].
  assert (Bp : 0 <= IZR base) by (apply IZR_le; lia).
  assert (RB : 0 <= val (fdiv (fofZ (C - c)) (fofZ (C - M))) * val (fofZ base) <= IZR base).
  { rewrite V3, V4. split. apply Rmult_le_pos; tauto. rewrite <- (Rmult_1_l (IZR base)) at 2. apply Rmult_le_compat_r; tauto. }
  assert (RR : 0 <= rnd (val (fdiv (fofZ (C - c)) (fofZ (C - M))) * val (fofZ base)) <= IZR base).
  { split. rewrite <- rnd_0. apply rnd_le; tauto. apply rnd_le_gen. apply F64_IZR. lia. tauto. }
  destruct (fmul_correct (fdiv (fofZ (C - c)) (fofZ (C - M))) (fofZ base)) as [V5 F5]; auto.
  { rewrite Rabs_pos_eq by tauto. apply Rle_lt_trans with (IZR base). tauto. apply small_ov; lia. }
  set (t := fmul (fdiv (fofZ (C - c)) (fofZ (C - M))) (fofZ base)) in *.
  assert (T : (int_of_f64 t <= base)%Z).
  { unfold int_of_f64. assert (IZR (Btrunc t) <= IZR base).
    { pose proof (Btrunc_correct 53 1024 emax1024 t) as K. rewrite K.
      unfold round, scaled_mantissa, cexp, FIX_exp, F2R. simpl. rewrite !Rmult_1_r. apply IZR_le.
      rewrite <- (Ztrunc_IZR base). apply Ztrunc_le. unfold val in *. rewrite V5. tauto. }
    apply le_IZR in H0. destruct t; try lia; cbv zeta; destruct (_ && _); lia. }
  destruct (Z.ltb_spec (int_of_f64 t) 1); lia.
Qed.
