(* ScaledRetryBudget: closed form over the reals, and monotonicity. *)
From Coq Require Import ZArith Reals Lia Lra List String Bool.
From Flocq Require Import Core BinarySingleNaN.
From Verif Require Import Base Float64 Options FloatFacts NumberFacts NumberThm.
Open Scope R_scope.

Definition optSmall (o : genOptions) : Prop :=
  (Z.abs (oCutoffGenerationSteps o) <= 2 ^ 51)%Z /\ (Z.abs (oMaximumGenerationSteps o) <= 2 ^ 51)%Z.

Definition budgetR (C M c base : Z) : R := rnd (rnd (IZR (C - c) / IZR (C - M)) * IZR base).

Lemma budget_closed : forall o c base, optSmall o -> (0 <= c <= 2 ^ 51)%Z -> (1 <= base <= 2 ^ 53)%Z ->
  let C := oCutoffGenerationSteps o in let M := oMaximumGenerationSteps o in
  shouldMinimize o c = true -> shouldCutoff o c = false -> (M < C)%Z ->
  scaledRetryBudget o c base = Z.max 1 (Ztrunc (budgetR C M c base)).
Proof.
  intros o c base [HC HM] Hc Hb C M EM EC W0.
  unfold scaledRetryBudget. destruct (Z.leb_spec base 0); [lia|]. rewrite EM, EC. simpl negb. cbv iota.
  unfold shouldMinimize in EM. apply andb_prop in EM as [EM1 EM2]. apply Z.ltb_lt in EM1, EM2.
  fold C in HC, EC |- *. fold M in HM, EM1, EM2 |- *.
  assert (W : (0 < C - M)%Z) by lia.
  destruct (fofZ_exact (C - c)) as [V1 F1]; [lia|]. destruct (fofZ_exact (C - M)) as [V2 F2]; [lia|].
  destruct (fleb (fofZ (C - M)) fzero) eqn:EW.
  { apply fleb_le in EW; [|exact F2|reflexivity]. rewrite V2, val_fzero in EW. apply le_IZR in EW. lia. }
  assert (Rm : (0 <= C - c <= C - M)%Z).
  { unfold shouldCutoff in EC. fold C in EC. apply andb_false_iff in EC. rewrite !Z.ltb_ge in EC. lia. }
  assert (Wp : 0 < IZR (C - M)) by (apply IZR_lt; lia).
  assert (Q : 0 <= IZR (C - c) / IZR (C - M) <= 1).
  { split. apply Rmult_le_pos. apply IZR_le; lia. left; now apply Rinv_0_lt_compat.
    apply Rmult_le_reg_r with (IZR (C - M)); auto. unfold Rdiv. rewrite Rmult_assoc, Rinv_l by lra.
    rewrite Rmult_1_r, Rmult_1_l. apply IZR_le; lia. }
  assert (RQ : 0 <= rnd (IZR (C - c) / IZR (C - M)) <= 1).
  { split. rewrite <- rnd_0. apply rnd_le; tauto. apply rnd_le_gen. apply (F64_IZR 1). lia. tauto. }
  destruct (fdiv_correct (fofZ (C - c)) (fofZ (C - M))) as [V3 F3]; auto.
  { rewrite V2. lra. }
  { rewrite V1, V2, Rabs_pos_eq by tauto. apply Rle_lt_trans with 1. tauto. apply (small_ov 1). lia. }
  rewrite V1, V2 in V3.
  destruct (fofZ_exact base) as [V4 F4]; [lia|].
  assert (Bp : 0 <= IZR base) by (apply IZR_le; lia).
  assert (RB : 0 <= val (fdiv (fofZ (C - c)) (fofZ (C - M))) * val (fofZ base) <= IZR base).
  { rewrite V3, V4. split. apply Rmult_le_pos; tauto. rewrite <- (Rmult_1_l (IZR base)) at 2. apply Rmult_le_compat_r; tauto. }
  assert (RR : 0 <= rnd (val (fdiv (fofZ (C - c)) (fofZ (C - M))) * val (fofZ base)) <= IZR base).
  { split. rewrite <- rnd_0. apply rnd_le; tauto. apply rnd_le_gen. apply F64_IZR. lia. tauto. }
  destruct (fmul_correct (fdiv (fofZ (C - c)) (fofZ (C - M))) (fofZ base)) as [V5 F5]; auto.
  { rewrite Rabs_pos_eq by tauto. apply Rle_lt_trans with (IZR base). tauto. apply small_ov; lia. }
  set (t := fmul (fdiv (fofZ (C - c)) (fofZ (C - M))) (fofZ base)) in *.
  assert (VT : val t = budgetR C M c base). { rewrite V5, V3, V4. reflexivity. }
  assert (BT : 0 <= val t <= IZR base). { rewrite V5. exact RR. }
  clearbody t. cbv zeta.
  assert (T : int_of_f64 t = Ztrunc (val t)).
  { assert (K : Btrunc t = Ztrunc (val t)).
    { apply eq_IZR. pose proof (Btrunc_correct 53 1024 emax1024 t) as K. rewrite K.
      unfold round, scaled_mantissa, cexp, FIX_exp, F2R. simpl. rewrite !Rmult_1_r. reflexivity. }
    assert (R : (0 <= Ztrunc (val t) <= base)%Z).
    { split. rewrite <- (Ztrunc_IZR 0). apply Ztrunc_le. tauto. rewrite <- (Ztrunc_IZR base). apply Ztrunc_le. tauto. }
    unfold int_of_f64. destruct t; try discriminate F5; cbv zeta; rewrite K;
    (replace ((- 2 ^ 63 <=? Ztrunc (val _)) && (Ztrunc (val _) <? 2 ^ 63))%Z with true; [reflexivity|]);
    symmetry; apply andb_true_intro; split; [apply Z.leb_le|apply Z.ltb_lt|apply Z.leb_le|apply Z.ltb_lt]; lia. }
  rewrite T, VT in *. destruct (Z.ltb_spec (Ztrunc (budgetR C M c base)) 1); lia.
Qed.

Lemma budget_mono : forall o c c' base, optSmall o -> (0 <= c)%Z -> (c <= c')%Z -> (c' <= 2 ^ 51)%Z -> (base <= 2 ^ 53)%Z ->
  (scaledRetryBudget o c' base <= scaledRetryBudget o c base)%Z.
Proof.
  intros o c c' base HO H0 Hle H1 Hb. pose proof HO as [HC HM].
  pose proof (budget_range o c' base HC HM ltac:(lia) Hb) as R'.
  pose proof (budget_range o c base HC HM ltac:(lia) Hb) as R.
  destruct (Z.leb_spec base 0).
  { unfold scaledRetryBudget. destruct (Z.leb_spec base 0); lia. }
  destruct (shouldMinimize o c) eqn:EM.
  2:{ assert (scaledRetryBudget o c base = base). { unfold scaledRetryBudget. destruct (Z.leb_spec base 0); [lia|]. now rewrite EM. } lia. }
  assert (EM' : shouldMinimize o c' = true).
  { unfold shouldMinimize in *. apply andb_prop in EM as [A B]. rewrite A. simpl. apply Z.ltb_lt in B. apply Z.ltb_lt. lia. }
  destruct (shouldCutoff o c') eqn:EC'.
  { assert (scaledRetryBudget o c' base = 1%Z). { unfold scaledRetryBudget. destruct (Z.leb_spec base 0); [lia|]. now rewrite EM', EC'. } lia. }
  assert (EC : shouldCutoff o c = false).
  { unfold shouldCutoff in *. apply andb_false_iff in EC'. apply andb_false_iff. rewrite !Z.ltb_ge in *. lia. }
  destruct (Z_lt_le_dec (oMaximumGenerationSteps o) (oCutoffGenerationSteps o)) as [W|W].
  - rewrite (budget_closed o c base), (budget_closed o c' base); auto; try lia.
    apply Z.max_le_compat_l. apply Ztrunc_le. unfold budgetR. apply rnd_le.
    apply Rmult_le_compat_r. apply IZR_le; lia. apply rnd_le.
    apply Rmult_le_compat_r. left. apply Rinv_0_lt_compat. apply IZR_lt. lia. apply IZR_le. lia.
  - assert (forall k, shouldMinimize o k = true -> shouldCutoff o k = false -> scaledRetryBudget o k base = 1%Z).
    { intros k A B. unfold scaledRetryBudget. destruct (Z.leb_spec base 0); [lia|]. rewrite A, B. simpl negb. cbv iota.
      destruct (fofZ_exact (oCutoffGenerationSteps o - oMaximumGenerationSteps o)) as [V F]; [lia|].
      replace (fleb _ fzero) with true; auto. symmetry. apply fleb_le; [exact F|reflexivity|].
      rewrite V, val_fzero. apply IZR_le. lia. }
    rewrite !H2 by auto. lia.
Qed.

Lemma budget_full : forall o c base, (1 <= base)%Z -> shouldMinimize o c = false -> scaledRetryBudget o c base = base.
Proof. intros o c base H E. unfold scaledRetryBudget. destruct (Z.leb_spec base 0); [lia|]. now rewrite E. Qed.

Lemma budget_cutoff : forall o c base, (1 <= base)%Z -> shouldCutoff o c = true -> shouldMinimize o c = true -> scaledRetryBudget o c base = 1%Z.
Proof. intros o c base H E F. unfold scaledRetryBudget. destruct (Z.leb_spec base 0); [lia|]. now rewrite F, E. Qed.

Lemma budget_in_range : forall o c base, optSmall o -> (0 <= c <= 2 ^ 51)%Z -> (base <= 2 ^ 53)%Z ->
  (1 <= scaledRetryBudget o c base <= Z.max 1 base)%Z.
Proof. intros o c base [A B]. now apply budget_range. Qed.

Lemma budget_full' : forall o c base, (1 <= base)%Z ->
  (oMaximumGenerationSteps o <= 0 \/ c <= oMaximumGenerationSteps o)%Z -> scaledRetryBudget o c base = base.
Proof. intros o c base H E. apply budget_full; auto. unfold shouldMinimize. apply andb_false_iff. rewrite !Z.ltb_ge. lia. Qed.

Lemma budget_cutoff' : forall o c base, (1 <= base)%Z -> (0 < oMaximumGenerationSteps o < c)%Z ->
  (0 < oCutoffGenerationSteps o < c)%Z -> scaledRetryBudget o c base = 1%Z.
Proof.
  intros o c base H E F. apply budget_cutoff; auto; unfold shouldCutoff, shouldMinimize; apply andb_true_intro; rewrite !Z.ltb_lt; lia.
Qed.

Lemma budget_case : optSmall (withDefaults zeroOptions) /\
  scaledRetryBudget (withDefaults zeroOptions) 1050 100 = 50%Z /\ scaledRetryBudget (withDefaults zeroOptions) 2001 100 = 1%Z.
Proof. repeat split; vm_compute; try reflexivity; discriminate. Qed.
