(* math.Mod and FindHcf over the reals. *)
From Coq Require Import ZArith Reals List String Bool Lia Lra Znumtheory Zpow_facts.
From Flocq Require Import Core BinarySingleNaN.
From Verif Require Import Base Float64 Util FloatFacts.
Open Scope R_scope.

Definition isMultiple (x y : R) : Prop := exists k : Z, x = IZR k * y.

Lemma isMultiple_trans : forall x y z, isMultiple x y -> isMultiple y z -> isMultiple x z.
Proof. intros x y z [k ->] [l ->]. exists (k * l)%Z. rewrite mult_IZR. ring. Qed.

Lemma B2R_pos : forall s m e H, B2R (B754_finite s m e H : f64) = IZR (if s then Zneg m else Zpos m) * bpow radix2 e.
Proof. intros. unfold B2R, F2R. simpl. destruct s; reflexivity. Qed.

Lemma bpow_shift : forall e e', (e <= e')%Z -> bpow radix2 e' = IZR (2 ^ (e' - e)) * bpow radix2 e.
Proof.
  intros. replace e' with ((e' - e) + e)%Z at 1 by ring. rewrite bpow_plus. f_equal.
  rewrite <- (IZR_Zpower radix2) by lia. reflexivity.
Qed.

(* a finite f64 is m * 2^e with |m| < 2^53 and e >= -1074 *)
Lemma finite_parts : forall (s : bool) m e (H : SpecFloat.bounded 53 1024 m e = true), (Zpos m < 2 ^ 53)%Z /\ (-1074 <= e)%Z.
Proof.
  intros s m e H. unfold SpecFloat.bounded in H. apply andb_prop in H. destruct H as [H1 H2].
  pose proof (canonical_canonical_mantissa 53 1024 false m e H1) as C.
  unfold canonical, cexp in C. simpl Fexp in C. rewrite fexp64_FLT in C. unfold FLT_exp in C.
  split; [|lia].
  assert (F : F64 (F2R (Float radix2 (Zpos m) e))).
  { apply generic_format_canonical. unfold canonical, cexp. simpl Fexp. rewrite fexp64_FLT. unfold FLT_exp. exact C. }
  assert (D : (mag radix2 (F2R (Float radix2 (Zpos m) e)) - 53 <= e)%Z) by (simpl cond_Zopp in C; lia).
  rewrite mag_F2R in D by discriminate.
  assert (M : (mag radix2 (IZR (Zpos m)) <= 53)%Z) by lia. clear -M.
  destruct (mag radix2 (IZR (Zpos m))) as [k Hk]. simpl in M.
  assert (IZR (Zpos m) <> 0) by (apply not_0_IZR; discriminate).
  specialize (Hk H). destruct Hk as [_ Hk].
  apply lt_IZR. change (2 ^ 53)%Z with (Zpower radix2 53). rewrite IZR_Zpower by lia.
  apply Rle_lt_trans with (Rabs (IZR (Zpos m))). apply RRle_abs.
  apply Rlt_le_trans with (1 := Hk). apply bpow_le; lia.
Qed.

Lemma F64_small : forall z e, (Z.abs z <= 2 ^ 53)%Z -> (-1074 <= e)%Z -> F64 (IZR z * bpow radix2 e).
Proof.
  intros z e Hz He. destruct (Z.eq_dec (Z.abs z) (2 ^ 53)) as [Eq|Eq].
  - assert (Fb : F64 (bpow radix2 (53 + e))).
    { apply generic_format_bpow. rewrite fexp64_FLT. unfold FLT_exp. lia. }
    rewrite bpow_plus in Fb. change (bpow radix2 53) with (IZR (2 ^ 53)) in Fb.
    destruct (Z.abs_spec z) as [[? K]|[? K]].
    + replace z with (2 ^ 53)%Z by lia. exact Fb.
    + replace z with (- 2 ^ 53)%Z by lia. rewrite opp_IZR. rewrite <- Ropp_mult_distr_l. apply generic_format_opp. exact Fb.
  - apply (generic_format_FLT radix2 (-1074) 53). exists (Float radix2 z e).
    + reflexivity.
    + simpl. change (Z.pow_pos 2 53) with (2 ^ 53)%Z. lia.
    + simpl. lia.
Qed.

Lemma F64_bound : forall x : f64, Rabs (val x) < bpow radix2 1024.
Proof. intros. apply abs_B2R_lt_emax. Qed.

(* Mod is zero only when the division is exact *)
Lemma fmod_zero : forall x y, fin x -> fin y -> val x <> 0 -> val y <> 0 -> feqb (fmod x y) fzero = true -> isMultiple (val x) (val y).
Proof.
  intros x y Hx Hy Nx Ny H.
  destruct x as [sx|sx| |sx mx ex bx]; try discriminate; try (exfalso; apply Nx; reflexivity).
  destruct y as [sy|sy| |sy my ey by_]; try discriminate; try (exfalso; apply Ny; reflexivity).
  unfold fmod in H. set (e := Z.min ex ey) in *. set (a := (Zpos mx * 2 ^ (ex - e))%Z) in *. set (b := (Zpos my * 2 ^ (ey - e))%Z) in *.
  destruct (finite_parts sx mx ex bx) as [Lx Ex], (finite_parts sy my ey by_) as [Ly Ey].
  assert (Pb : (0 < b)%Z). { unfold b. apply Z.mul_pos_pos. lia. apply Z.pow_pos_nonneg; lia. }
  assert (Pa : (0 < a)%Z). { unfold a. apply Z.mul_pos_pos. lia. apply Z.pow_pos_nonneg; lia. }
  pose proof (Z.mod_pos_bound a b Pb) as Hr.
  assert (Hr' : (a mod b < 2 ^ 53)%Z).
  { destruct (Z.min_spec ex ey) as [[? M]|[? M]].
    - assert (a = Zpos mx). { unfold a, e. rewrite M, Z.sub_diag. simpl. lia. }
      pose proof (Z.mod_le a b ltac:(lia) Pb). lia.
    - assert (b = Zpos my). { unfold b, e. rewrite M, Z.sub_diag. simpl. lia. } lia. }
  set (r := (a mod b)%Z) in *.
  pose proof (binary_normalize_correct 53 1024 prec53 emax1024 mode_NE (if sx then - r else r)%Z e sx) as C.
  cbv zeta in C.
  assert (Fr : F64 (F2R (Float radix2 (if sx then - r else r)%Z e))).
  { unfold F2R. simpl Fnum. simpl Fexp. apply F64_small; [destruct sx; lia|]. lia. }
  rewrite round_generic in C; [|apply valid_rnd_round_mode|exact Fr].
  assert (Bd : Rabs (F2R (Float radix2 (if sx then - r else r)%Z e)) < bpow radix2 1024).
  { unfold F2R. simpl Fnum. simpl Fexp.
    destruct (Z.min_spec ex ey) as [[? M]|[? M]].
    - apply Rle_lt_trans with (Rabs (val (B754_finite sx mx ex bx))); [|apply F64_bound].
      unfold val. rewrite B2R_pos, !Rabs_mult. unfold e. rewrite M.
      apply Rmult_le_compat_r. apply Rabs_pos. rewrite <- !abs_IZR. apply IZR_le.
      assert (a = Zpos mx). { unfold a, e. rewrite M, Z.sub_diag. simpl. lia. }
      pose proof (Z.mod_le a b ltac:(lia) Pb). fold r in H1. destruct sx; lia.
    - apply Rle_lt_trans with (Rabs (val (B754_finite sy my ey by_))); [|apply F64_bound].
      unfold val. rewrite B2R_pos, !Rabs_mult. unfold e. rewrite M.
      apply Rmult_le_compat_r. apply Rabs_pos. rewrite <- !abs_IZR. apply IZR_le.
      assert (b = Zpos my). { unfold b, e. rewrite M, Z.sub_diag. simpl. lia. } destruct sx, sy; lia. }
  rewrite Rlt_bool_true in C by exact Bd. destruct C as (A & B & _).
  apply feqb_eq in H; [|exact B|reflexivity]. unfold val in H. rewrite A in H. change (B2R fzero) with 0 in H.
  assert (R0 : r = 0%Z).
  { unfold F2R in H. simpl Fnum in H. simpl Fexp in H. apply Rmult_integral in H.
    destruct H as [H|H]; [|pose proof (bpow_gt_0 radix2 e); lra]. apply eq_IZR in H. destruct sx; lia. }
  exists ((if sx then -1 else 1) * (if sy then -1 else 1) * (a / b))%Z.
  unfold val. rewrite !B2R_pos. rewrite (bpow_shift e ex), (bpow_shift e ey) by lia.
  assert (Hab : (a = b * (a / b))%Z). { pose proof (Z.div_mod a b ltac:(lia)). fold r in H0. lia. }
  rewrite <- !Rmult_assoc, <- !mult_IZR. f_equal. f_equal.
  destruct sx, sy.
  all: unfold a, b in *; try change (Zneg mx) with (- Zpos mx)%Z; try change (Zneg my) with (- Zpos my)%Z.
  all: try (rewrite Z.mul_opp_l; rewrite Hab at 1; ring); rewrite Hab at 1; ring.
Qed.

(* ------------------------------------------------------------------ countDecimalPlaces *)
Lemma strip10_ok : forall n t, (strip10 n t <= n)%nat /\ exists u, (t = u * 10 ^ Z.of_nat (n - strip10 n t))%Z.
Proof.
  induction n; intros t. { split; auto. exists t. simpl. ring. }
  cbn [strip10]. destruct (t mod 10 =? 0)%Z eqn:E.
  - apply Z.eqb_eq in E. destruct (IHn (t / 10)%Z) as [L [u Hu]]. split; [lia|]. exists u.
    replace (S n - strip10 n (t / 10))%nat with (S (n - strip10 n (t / 10))) by lia.
    rewrite Nat2Z.inj_succ, Z.pow_succ_r by lia.
    pose proof (Z.div_mod t 10 ltac:(lia)) as D. rewrite E in D.
    rewrite D at 1. rewrite Hu at 1. ring.
  - split; auto. exists t. rewrite Nat.sub_diag. simpl. ring.
Qed.
Lemma strip10_min : forall n t k, (k <= n)%nat -> (exists u, t = (u * 10 ^ Z.of_nat (n - k))%Z) -> (strip10 n t <= k)%nat.
Proof.
  induction n; intros t k Hk [u Hu]; [simpl; lia|].
  cbn [strip10]. destruct (Nat.eq_dec k (S n)); [rewrite e; destruct (strip10_ok (S n) t) as [L _]; exact L|].
  replace (S n - k)%nat with (S (n - k)) in Hu by lia.
  rewrite Nat2Z.inj_succ, Z.pow_succ_r in Hu by lia.
  assert (Ht : (t = (u * 10 ^ Z.of_nat (n - k)) * 10)%Z) by (rewrite Hu; ring).
  rewrite Ht, Z_mod_mult. simpl. rewrite Z_div_mult by lia. apply IHn; [lia|]. eauto.
Qed.

Lemma div_half_even_exact : forall a b, (0 < b)%Z -> (a mod b = 0)%Z -> div_half_even a b = (a / b)%Z.
Proof. intros. unfold div_half_even. rewrite H0. simpl. destruct (Z.ltb_spec 0 b); [reflexivity|lia]. Qed.

(* a number with at most k <= 6 decimals: countDecimalPlaces is at most k and enough *)
Lemma countDecimalPlaces_ok : forall x k, fin x -> 0 < val x -> (k <= 6)%nat ->
  (exists u, val x * IZR (10 ^ Z.of_nat k) = IZR u) ->
  (countDecimalPlaces x <= k)%nat /\ exists u, val x * IZR (10 ^ Z.of_nat (countDecimalPlaces x)) = IZR u.
Proof.
  intros x k Hx Px Hk [u Hu].
  destruct x as [s|s| |s m e b]; try discriminate; try (exfalso; unfold val in Px; simpl in Px; lra).
  set (X := B754_finite s m e b) in *.
  assert (Sp : s = false).
  { destruct s; auto. exfalso. unfold val, X in Px. rewrite B2R_pos in Px. pose proof (bpow_gt_0 radix2 e).
    assert (IZR (Zneg m) < 0) by (apply IZR_lt; lia). nra. }
  set (t := (if (0 <=? e)%Z then (Zpos m * 10 ^ 6 * 2 ^ e)%Z else div_half_even (Zpos m * 10 ^ 6) (2 ^ (- e)))).
  assert (Ht : countDecimalPlaces X = strip10 6 t) by reflexivity.
  assert (Hv : val X = IZR (Zpos m) * bpow radix2 e) by (unfold val, X; rewrite B2R_pos; subst s; reflexivity).
  assert (T : IZR t = val X * IZR (10 ^ 6)).
  { unfold t. destruct (Z.leb_spec 0 e).
    - rewrite Hv, !mult_IZR. change (2 ^ e)%Z with (Zpower radix2 e). rewrite IZR_Zpower by auto. ring.
    - assert (E1 : (val X * IZR (10 ^ 6) = IZR (u * 10 ^ Z.of_nat (6 - k)))).
      { rewrite mult_IZR, <- Hu. rewrite Rmult_assoc, <- mult_IZR, <- Z.pow_add_r by lia.
        replace (Z.of_nat k + Z.of_nat (6 - k))%Z with 6%Z by lia. reflexivity. }
      rewrite E1. rewrite Hv in E1.
      assert (E2 : (Zpos m * 10 ^ 6 = (u * 10 ^ Z.of_nat (6 - k)) * 2 ^ (- e))%Z).
      { apply eq_IZR. rewrite mult_IZR, (mult_IZR (u * _)), <- E1. change (2 ^ (- e))%Z with (Zpower radix2 (- e)). rewrite IZR_Zpower by lia.
        rewrite bpow_opp. field. apply Rgt_not_eq, bpow_gt_0. }
      assert (P2 : (0 < 2 ^ (- e))%Z) by (apply Z.pow_pos_nonneg; lia).
      rewrite E2. rewrite div_half_even_exact; [|auto|apply Z_mod_mult]. rewrite Z_div_mult by lia. reflexivity. }
  assert (Hd : exists u', (t = u' * 10 ^ Z.of_nat (6 - k))%Z).
  { exists u. apply eq_IZR. rewrite T, mult_IZR, <- Hu, Rmult_assoc, <- mult_IZR, <- Z.pow_add_r by lia.
    replace (Z.of_nat k + Z.of_nat (6 - k))%Z with 6%Z by lia. reflexivity. }
  rewrite Ht. split; [apply strip10_min; auto|].
  destruct (strip10_ok 6 t) as [L [w Hw]]. exists w.
  assert (P10 : 0 < IZR (10 ^ Z.of_nat (6 - strip10 6 t))) by (apply IZR_lt, Z.pow_pos_nonneg; lia).
  apply Rmult_eq_reg_r with (IZR (10 ^ Z.of_nat (6 - strip10 6 t))); [|lra].
  rewrite <- mult_IZR, <- Hw, T, Rmult_assoc, <- mult_IZR, <- Z.pow_add_r by lia.
  replace (Z.of_nat (strip10 6 t) + Z.of_nat (6 - strip10 6 t))%Z with 6%Z by lia. reflexivity.
Qed.

(* a binary64 number with at most k decimals has at most k binary places *)
Lemma dyadic : forall x k, fin x -> (exists u, val x * IZR (10 ^ Z.of_nat k) = IZR u) -> exists w, val x = IZR w * bpow radix2 (- Z.of_nat k).
Proof.
  intros x k Hx [u Hu].
  destruct x as [s|s| |s m e b]; try discriminate. { exists 0%Z. unfold val. simpl. ring. }
  unfold val in *. rewrite B2R_pos in *. set (z := if s then Zneg m else Zpos m) in *.
  destruct (Z_le_gt_dec (- Z.of_nat k) e) as [He|He].
  - rewrite (bpow_shift (- Z.of_nat k) e) by auto. rewrite <- Rmult_assoc, <- mult_IZR. eauto.
  - (* e < -k : 2^(-e-k) divides z *)
    set (d := (- e - Z.of_nat k)%Z).
    assert (Hz : (z * 5 ^ Z.of_nat k = u * 2 ^ d)%Z).
    { apply eq_IZR. rewrite !mult_IZR. change (2 ^ d)%Z with (Zpower radix2 d). rewrite IZR_Zpower by (unfold d; lia).
      rewrite <- Hu. replace (10 ^ Z.of_nat k)%Z with (5 ^ Z.of_nat k * 2 ^ Z.of_nat k)%Z by (rewrite <- Z.pow_mul_l; reflexivity).
      rewrite mult_IZR. change (2 ^ Z.of_nat k)%Z with (Zpower radix2 (Z.of_nat k)). rewrite IZR_Zpower by lia.
      transitivity (IZR z * IZR (5 ^ Z.of_nat k) * (bpow radix2 e * bpow radix2 (Z.of_nat k) * bpow radix2 d)); [|ring].
      rewrite <- !bpow_plus. replace (e + Z.of_nat k + d)%Z with 0%Z by (unfold d; lia). simpl. ring. }
    assert (Dv : (2 ^ d | z)%Z).
    { apply Gauss with (5 ^ Z.of_nat k)%Z. exists u. rewrite Z.mul_comm. exact Hz.
      apply Zpow_facts.rel_prime_Zpower; [unfold d; lia|lia|]. apply Zgcd_1_rel_prime. reflexivity. }
    destruct Dv as [w Hw]. exists w. rewrite Hw, mult_IZR. change (2 ^ d)%Z with (Zpower radix2 d). rewrite IZR_Zpower by (unfold d; lia).
    rewrite Rmult_assoc, <- bpow_plus. f_equal. f_equal. unfold d. lia.
Qed.

Lemma IZR_bpow2 : forall k, IZR (2 ^ Z.of_nat k) = bpow radix2 (Z.of_nat k).
Proof. intros. change (2 ^ Z.of_nat k)%Z with (Zpower radix2 (Z.of_nat k)). rewrite IZR_Zpower by lia. reflexivity. Qed.

Lemma rnd_exact_lt : forall x, F64 x -> Rabs x < bpow radix2 1024 -> rnd x = x /\ Rabs (rnd x) < bpow radix2 1024.
Proof. intros. rewrite rnd_id; auto. Qed.

(* the computed common multiple, for numbers with few decimals *)
Theorem findHcf_bounded : forall a b m, fin a -> fin b -> 0 < val a -> 0 < val b -> (m <= 6)%nat ->
  (exists u, val a * IZR (10 ^ Z.of_nat m) = IZR u) -> (exists u, val b * IZR (10 ^ Z.of_nat m) = IZR u) ->
  val a * IZR (10 ^ Z.of_nat m) * (val b * IZR (10 ^ Z.of_nat m)) <= IZR (2 ^ 53) ->
  exists r, findHcf (Some a) (Some b) = Some r /\ fin r /\ 0 < val r /\ isMultiple (val r) (val a) /\ isMultiple (val r) (val b) /\
    val r * IZR (10 ^ Z.of_nat m) <= val a * IZR (10 ^ Z.of_nat m) * (val b * IZR (10 ^ Z.of_nat m)).
Proof.
  intros a b m Fa Fb Pa Pb Hm Ha Hb Hp.
  assert (Za : feqb a fzero = false). { apply feqb_neq; auto. reflexivity. change (val fzero) with 0. lra. }
  assert (Zb : feqb b fzero = false). { apply feqb_neq; auto. reflexivity. change (val fzero) with 0. lra. }
  assert (Self : forall x, isMultiple x x) by (intros; exists 1%Z; ring).
  assert (One : forall x, 0 < val x -> (exists u, val x * IZR (10 ^ Z.of_nat m) = IZR u) -> 1 <= val x * IZR (10 ^ Z.of_nat m)).
  { intros x Px [u Hu]. rewrite Hu. apply IZR_le. assert (0 < u)%Z; [|lia]. apply lt_IZR. rewrite <- Hu. apply Rmult_lt_0_compat; [lra|].
    apply IZR_lt. apply Z.pow_pos_nonneg; lia. }
  unfold findHcf. rewrite Za, Zb.
  destruct (feqb (fmod a b) fzero) eqn:M1.
  { exists a. repeat split; auto. apply fmod_zero; auto; lra. pose proof (One a Pa Ha). pose proof (One b Pb Hb). nra. }
  destruct (feqb (fmod b a) fzero) eqn:M2.
  { exists b. repeat split; auto. apply fmod_zero; auto; lra. pose proof (One a Pa Ha). pose proof (One b Pb Hb). nra. }
  destruct (countDecimalPlaces_ok a m Fa Pa Hm Ha) as [La [ua Ua]].
  destruct (countDecimalPlaces_ok b m Fb Pb Hm Hb) as [Lb [ub Ub]].
  set (k := Nat.max (countDecimalPlaces a) (countDecimalPlaces b)) in *.
  assert (Lk : (k <= m)%nat) by (unfold k; lia).
  assert (S10 : forall i j, (i <= j)%nat -> IZR (10 ^ Z.of_nat j) = IZR (10 ^ Z.of_nat i) * IZR (10 ^ Z.of_nat (j - i))).
  { intros i j Hij. rewrite <- mult_IZR, <- Z.pow_add_r by lia. do 2 f_equal. lia. }
  assert (P10 : forall i, 1 <= IZR (10 ^ Z.of_nat i)).
  { intros i. apply IZR_le. pose proof (Z.pow_pos_nonneg 10 (Z.of_nat i) ltac:(lia) ltac:(lia)). lia. }
  assert (Ua' : exists u, val a * IZR (10 ^ Z.of_nat k) = IZR u).
  { exists (ua * 10 ^ Z.of_nat (k - countDecimalPlaces a))%Z. rewrite mult_IZR, <- Ua. rewrite (S10 (countDecimalPlaces a) k) by (unfold k; lia). ring. }
  assert (Ub' : exists u, val b * IZR (10 ^ Z.of_nat k) = IZR u).
  { exists (ub * 10 ^ Z.of_nat (k - countDecimalPlaces b))%Z. rewrite mult_IZR, <- Ub. rewrite (S10 (countDecimalPlaces b) k) by (unfold k; lia). ring. }
  clear Ua Ub ua ub. destruct Ua' as [A HA], Ub' as [B HB].
  assert (Bnd : val a * IZR (10 ^ Z.of_nat k) * (val b * IZR (10 ^ Z.of_nat k)) <= IZR (2 ^ 53)).
  { eapply Rle_trans; [|exact Hp]. rewrite (S10 k m Lk).
    pose proof (P10 (m - k)%nat). pose proof (P10 k).
    apply Rmult_le_compat; try (apply Rmult_le_pos; lra);
    (apply Rmult_le_compat_l; [lra|]); rewrite <- (Rmult_1_r (IZR (10 ^ Z.of_nat k))) at 1; apply Rmult_le_compat_l; lra. }
  rewrite HA, HB, <- mult_IZR in Bnd. apply le_IZR in Bnd.
  assert (PA : (0 < A)%Z). { apply lt_IZR. rewrite <- HA. apply Rmult_lt_0_compat; [lra|]. pose proof (P10 k). lra. }
  assert (PB : (0 < B)%Z). { apply lt_IZR. rewrite <- HB. apply Rmult_lt_0_compat; [lra|]. pose proof (P10 k). lra. }
  assert (LA : (A <= 2 ^ 53)%Z) by (apply Z.le_trans with (A * B)%Z; [rewrite <- (Z.mul_1_r A) at 1; apply Z.mul_le_mono_nonneg_l; lia|auto]).
  assert (LB : (B <= 2 ^ 53)%Z) by (apply Z.le_trans with (A * B)%Z; [rewrite <- (Z.mul_1_l B) at 1; apply Z.mul_le_mono_nonneg_r; lia|auto]).
  assert (Big : forall z, (0 <= z <= 2 ^ 53)%Z -> rnd (IZR z) = IZR z /\ Rabs (rnd (IZR z)) < bpow radix2 1024).
  { intros z Hz. assert (F : F64 (IZR z)) by (apply F64_IZR; lia). rewrite (rnd_id _ F). split; auto.
    rewrite Rabs_pos_eq by (apply IZR_le; lia). apply Rle_lt_trans with (IZR (2 ^ 53)). apply IZR_le; lia.
    change (IZR (2 ^ 53)) with (bpow radix2 53). apply bpow_lt. lia. }
  assert (S53 : (Z.abs (10 ^ Z.of_nat k) <= 2 ^ 53)%Z).
  { rewrite Z.abs_eq by (apply Z.pow_nonneg; lia). apply Z.le_trans with (10 ^ 6)%Z; [apply Z.pow_le_mono_r; lia|lia]. }
  destruct (fofZ_exact _ S53) as [Sv Sf]. fold (fpow10 k) in Sv, Sf. set (sc := fpow10 k) in *.
  assert (Ma : val (fmul a sc) = IZR A /\ fin (fmul a sc)).
  { destruct (Big A ltac:(lia)) as [R1 R2]. destruct (fmul_correct a sc) as [V F]; auto.
    rewrite Sv, HA. exact R2. split; auto. rewrite V, Sv, HA. exact R1. }
  assert (Mb : val (fmul b sc) = IZR B /\ fin (fmul b sc)).
  { destruct (Big B ltac:(lia)) as [R1 R2]. destruct (fmul_correct b sc) as [V F]; auto.
    rewrite Sv, HB. exact R2. split; auto. rewrite V, Sv, HB. exact R1. }
  destruct Ma as [Va Ga], Mb as [Vb Gb].
  assert (Mab : val (fmul (fmul a sc) (fmul b sc)) = IZR (A * B) /\ fin (fmul (fmul a sc) (fmul b sc))).
  { destruct (Big (A * B)%Z ltac:(lia)) as [R1 R2]. destruct (fmul_correct (fmul a sc) (fmul b sc)) as [V F]; auto.
    rewrite Va, Vb, <- mult_IZR. exact R2. split; auto. rewrite V, Va, Vb, <- mult_IZR. exact R1. }
  destruct Mab as [Vab Gab].
  assert (Ps : 0 < val sc) by (rewrite Sv; pose proof (P10 k); lra).
  (* the quotient is exact *)
  assert (Q : val (fmul (fmul a sc) (fmul b sc)) / val sc = val a * val b * IZR (10 ^ Z.of_nat k)).
  { rewrite Vab, mult_IZR, <- HA, <- HB, Sv. field. pose proof (P10 k). lra. }
  assert (FQ : F64 (val a * val b * IZR (10 ^ Z.of_nat k))).
  { destruct (dyadic a k Fa (ex_intro _ A HA)) as [wa Wa], (dyadic b k Fb (ex_intro _ B HB)) as [wb Wb].
    assert (V : val a * val b * IZR (10 ^ Z.of_nat k) = IZR (wa * wb * 5 ^ Z.of_nat k) * bpow radix2 (- Z.of_nat k)).
    { rewrite Wa, Wb. replace (10 ^ Z.of_nat k)%Z with (5 ^ Z.of_nat k * 2 ^ Z.of_nat k)%Z by (rewrite <- Z.pow_mul_l; reflexivity).
      rewrite !mult_IZR, IZR_bpow2, bpow_opp. field. apply Rgt_not_eq, bpow_gt_0. }
    rewrite V. apply F64_small; [|lia].
    assert (HAw : (A = wa * 5 ^ Z.of_nat k)%Z).
    { apply eq_IZR. rewrite <- HA, Wa, mult_IZR. replace (10 ^ Z.of_nat k)%Z with (5 ^ Z.of_nat k * 2 ^ Z.of_nat k)%Z by (rewrite <- Z.pow_mul_l; reflexivity).
      rewrite mult_IZR, IZR_bpow2, bpow_opp. field. apply Rgt_not_eq, bpow_gt_0. }
    assert (HBw : (B = wb * 5 ^ Z.of_nat k)%Z).
    { apply eq_IZR. rewrite <- HB, Wb, mult_IZR. replace (10 ^ Z.of_nat k)%Z with (5 ^ Z.of_nat k * 2 ^ Z.of_nat k)%Z by (rewrite <- Z.pow_mul_l; reflexivity).
      rewrite mult_IZR, IZR_bpow2, bpow_opp. field. apply Rgt_not_eq, bpow_gt_0. }
    assert (P5 : (1 <= 5 ^ Z.of_nat k)%Z) by (pose proof (Z.pow_pos_nonneg 5 (Z.of_nat k) ltac:(lia) ltac:(lia)); lia).
    assert (0 < wa)%Z by (apply Z.mul_pos_cancel_r with (5 ^ Z.of_nat k)%Z; lia).
    assert (0 < wb)%Z by (apply Z.mul_pos_cancel_r with (5 ^ Z.of_nat k)%Z; lia).
    rewrite Z.abs_eq by (apply Z.mul_nonneg_nonneg; [apply Z.mul_nonneg_nonneg|]; lia).
    apply Z.le_trans with (A * B)%Z; auto. rewrite HAw. rewrite <- Z.mul_assoc, (Z.mul_comm wb), Z.mul_assoc.
    apply Z.mul_le_mono_nonneg_l; [apply Z.mul_nonneg_nonneg; lia|].
    rewrite HBw. rewrite <- (Z.mul_1_r wb) at 1. apply Z.mul_le_mono_nonneg_l; lia. }
  assert (LQ : Rabs (val a * val b * IZR (10 ^ Z.of_nat k)) < bpow radix2 1024).
  { rewrite Rabs_pos_eq by (apply Rmult_le_pos; [apply Rmult_le_pos; lra|pose proof (P10 k); lra]).
    apply Rle_lt_trans with (IZR (A * B)).
    - rewrite mult_IZR, <- HA, <- HB. pose proof (P10 k).
      assert (0 < val a * val b * IZR (10 ^ Z.of_nat k)) by (apply Rmult_lt_0_compat; [apply Rmult_lt_0_compat; lra|lra]). nra.
    - apply Rle_lt_trans with (IZR (2 ^ 53)). apply IZR_le; auto. change (IZR (2 ^ 53)) with (bpow radix2 53). apply bpow_lt. lia. }
  destruct (fdiv_correct (fmul (fmul a sc) (fmul b sc)) sc) as [V F]; auto.
  { lra. } { rewrite Q, (rnd_id _ FQ). exact LQ. }
  exists (fdiv (fmul (fmul a sc) (fmul b sc)) sc). rewrite Q, (rnd_id _ FQ) in V.
  split; [reflexivity|]. split; [exact F|]. rewrite V.
  split. { apply Rmult_lt_0_compat; [apply Rmult_lt_0_compat; lra|pose proof (P10 k); lra]. }
  split; [exists B; rewrite <- HB; ring|]. split; [exists A; rewrite <- HA; ring|].
  assert (L10 : IZR (10 ^ Z.of_nat k) <= IZR (10 ^ Z.of_nat m)) by (apply IZR_le, Z.pow_le_mono_r; lia). pose proof (P10 m).
  replace (val a * IZR (10 ^ Z.of_nat m) * (val b * IZR (10 ^ Z.of_nat m))) with (val a * val b * IZR (10 ^ Z.of_nat m) * IZR (10 ^ Z.of_nat m)) by ring.
  apply Rmult_le_compat_r; [lra|]. apply Rmult_le_compat_l; [apply Rmult_le_pos; lra|exact L10].
Qed.

Theorem findHcf_multiple : forall a b m, fin a -> fin b -> 0 < val a -> 0 < val b -> (m <= 6)%nat ->
  (exists u, val a * IZR (10 ^ Z.of_nat m) = IZR u) -> (exists u, val b * IZR (10 ^ Z.of_nat m) = IZR u) ->
  val a * IZR (10 ^ Z.of_nat m) * (val b * IZR (10 ^ Z.of_nat m)) <= IZR (2 ^ 53) ->
  exists r, findHcf (Some a) (Some b) = Some r /\ fin r /\ 0 < val r /\ isMultiple (val r) (val a) /\ isMultiple (val r) (val b).
Proof. intros a b m Fa Fb Pa Pb Hm Ha Hb Hp. destruct (findHcf_bounded a b m Fa Fb Pa Pb Hm Ha Hb Hp) as (r & E & F & P & A & B & _). exists r. auto. Qed.
