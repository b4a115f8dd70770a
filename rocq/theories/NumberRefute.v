(* Concrete schemas: witnesses for the refuted statements and for non-vacuity. *)
From Coq Require Import ZArith Reals Lia Lra List String Bool.
From Flocq Require Import Core BinarySingleNaN.
From Verif Require Import HcfFacts Base Float64 Json Schema Util Rand Options Number SpecNumber.
From Verif Require Import FloatFacts NumberFacts NumberThm NumberProps.
Open Scope R_scope.

Lemma randomInt_lt : forall mn mx d, (- 2 ^ 63 <= mn)%Z -> (mx < 2 ^ 63)%Z -> (mx - mn < 2 ^ 63)%Z -> (mn < mx)%Z ->
  exists v, randomInt mn mx d = Ok v /\ (mn <= v < mx)%Z.
Proof. intros. destruct (randomInt_spec mn mx d) as (r & A & B & C); auto; try lia. exists r. split; auto; lia. Qed.

Lemma randomInt_eq : forall mn d, randomInt mn mn d = Ok mn.
Proof. intros. unfold randomInt. now rewrite Z.eqb_refl. Qed.

Lemma randomInt_panic : forall mn mx d, (mx < mn)%Z -> (- 2 ^ 63 <= mx - mn)%Z -> exists w, randomInt mn mx d = Panic w.
Proof.
  intros mn mx d H1 H2. unfold randomInt. destruct (Z.eqb_spec mn mx); [lia|].
  rewrite wrap64_id by lia. unfold intn. destruct (Z.leb_spec (mx - mn) 0); [|lia]. simpl. eauto.
Qed.

Lemma randomFloat_case : is_finite (fofZ 1) = true /\ is_finite (fofZ 3) = true /\ B2R (fofZ 1) <= B2R (fofZ 3) /\
  Rabs (round radix2 (SpecFloat.fexp 53 1024) ZnearestE (B2R (fofZ 3) - B2R (fofZ 1))) < bpow radix2 1024.
Proof.
  destruct (fofZ_exact 1) as [A B]. lia. destruct (fofZ_exact 3) as [C D]. lia. unfold val, fin in *.
  repeat split; auto. rewrite A, C; lra. rewrite A, C.
  replace (3 - 1) with (IZR 2) by (simpl; lra). rewrite rnd_id by (apply F64_IZR; lia).
  rewrite Rabs_pos_eq by lra. apply (small_ov 2). lia.
Qed.

Lemma number_total : forall n d, finiteKeywords n -> sMultipleOf n = None ->
  (exists p, parseNumber n false = Good p) -> exists v, producesNumber n false d v.
Proof.
  intros n d HK HM [p E]. destruct (num_main n d p HK (or_introl HM) E) as (v & x & mn & mx & _ & HV & _).
  exists v. unfold producesNumber. rewrite E. destruct p; auto.
Qed.

Lemma integer_multiple : forall n d v m,
  keywordsWithin (IZR (2 ^ 50)) (IZR (2 ^ 40)) n -> sMultipleOf n = Some m -> 0 < B2R m ->
  producesNumber n true d v ->
  exists z k : Z, numberValue v (IZR z) /\ IZR z = IZR k * B2R m /\ okBounds n (IZR z).
Proof.
  intros n d v m HK HM HP HV. destruct (integer_ok n d v HK) as (z & A & B & C); auto.
  { intros m' H. rewrite HM in H. now injection H as <-. }
  destruct (C m HM) as [k K]. eauto.
Qed.

(* {"type":"integer","minimum":3,"exclusiveMaximum":40,"multipleOf":7} *)
Definition exInt : schemaNode :=
  set_sMinimum (Some (fofZ 3)) (set_sExclusiveMaximum (Some (fofZ 40)) (set_sMultipleOf (Some (fofZ 7)) emptyNode)).

Lemma fofZ_B : forall z, (Z.abs z <= 2 ^ 53)%Z -> B2R (fofZ z) = IZR z.
Proof. intros z H. apply (fofZ_exact z H). Qed.
Lemma fofZ_F : forall z, (Z.abs z <= 2 ^ 53)%Z -> is_finite (fofZ z) = true.
Proof. intros z H. apply (fofZ_exact z H). Qed.

Lemma exInt_1 : sMinimum exInt = Some (fofZ 3). Proof. reflexivity. Qed.
Lemma exInt_2 : sMaximum exInt = None. Proof. reflexivity. Qed.
Lemma exInt_3 : sExclusiveMinimum exInt = None. Proof. reflexivity. Qed.
Lemma exInt_4 : sExclusiveMaximum exInt = Some (fofZ 40). Proof. reflexivity. Qed.
Lemma exInt_5 : sMultipleOf exInt = Some (fofZ 7). Proof. reflexivity. Qed.

Lemma exInt_within : keywordsWithin (IZR (2 ^ 50)) (IZR (2 ^ 40)) exInt.
Proof.
  unfold keywordsWithin. rewrite exInt_1, exInt_2, exInt_3, exInt_4, exInt_5.
  repeat split; try (apply fofZ_F; lia); rewrite fofZ_B by lia; rewrite <- abs_IZR; apply IZR_le; lia.
Qed.

Lemma exInt_ok : keywordsWithin (IZR (2 ^ 50)) (IZR (2 ^ 40)) exInt /\
  (forall m, sMultipleOf exInt = Some m -> 0 < B2R m) /\ producesNumber exInt true 7 (JInt 28).
Proof.
  split; [exact exInt_within|]. split.
  - intros m H. injection H as <-. rewrite fofZ_B by lia. lra.
  - unfold producesNumber.
    assert (E : parseNumber exInt true = Good (NGen (mkNum true (fofZ 3) (fofZ 39) (fofZ 7)))).
    { unfold parseNumber. 
      assert (R : resolveMinMax exInt true = Good (fofZ 3, fofZ 39)).
      { assert (X : match resolveMinMax exInt true with Good (a, b) => B2SF a = B2SF (fofZ 3) /\ B2SF b = B2SF (fofZ 39) | Bad _ => False end)
          by (vm_compute; split; reflexivity).
        destruct (resolveMinMax exInt true) as [[a b]|]; [|contradiction]. destruct X as [X Y].
        apply B2SF_inj in X, Y. now subst. }
      rewrite R. replace (feqb (fofZ 3) (fofZ 39)) with false by (vm_compute; reflexivity). reflexivity. }
    rewrite E. vm_compute. reflexivity.
Qed.

Lemma exInt_two : keywordsWithin (IZR (2 ^ 50)) (IZR (2 ^ 40)) exInt /\ integerKeywords exInt /\
  okBounds exInt (IZR 7) /\ okMultipleOf exInt (IZR 7) /\ okBounds exInt (IZR 14) /\ okMultipleOf exInt (IZR 14).
Proof.
  split; [exact exInt_within|].
  assert (B : forall z, (3 <= z < 40)%Z -> okBounds exInt (IZR z)).
  { intros z Hz. repeat split; intros a H; try discriminate H; injection H as <-; rewrite fofZ_B by lia.
    apply IZR_le; lia. apply IZR_lt; lia. }
  split; [|split; [|split; [|split]]].
  - unfold integerKeywords. rewrite exInt_1, exInt_2, exInt_3, exInt_4, exInt_5.
    repeat split; try (eexists; apply fofZ_B; lia). rewrite fofZ_B by lia. lra.
  - apply B; lia.
  - intros m H. injection H as <-. exists 1%Z. rewrite fofZ_B by lia. lra.
  - apply B; lia.
  - intros m H. injection H as <-. exists 2%Z. rewrite fofZ_B by lia. lra.
Qed.

(* {"type":"number","exclusiveMinimum":3,"maximum":40} *)
Definition exNum : schemaNode := set_sExclusiveMinimum (Some (fofZ 3)) (set_sMaximum (Some (fofZ 40)) emptyNode).

Lemma produces_some : forall n i d, (match parseNumber n i with Good (NGen g) => match numberGenerate g d with Ok _ => true | _ => false end | Good _ => true | Bad _ => false end) = true ->
  exists v, producesNumber n i d v.
Proof.
  intros n i d H. unfold producesNumber. destruct (parseNumber n i) as [[f|g]|]; try discriminate; eauto.
  destruct (numberGenerate g d); try discriminate; eauto.
Qed.

Lemma exNum_ok : finiteKeywords exNum /\ sMultipleOf exNum = None /\ exists v, producesNumber exNum false 7 v.
Proof.
  split. repeat split; vm_compute; auto. split. reflexivity. apply produces_some. vm_compute. reflexivity.
Qed.

(* the value as a decidable test: produced number is a float (or int) violating a bound *)
Definition producedF (n : schemaNode) (i : bool) (d : Z) : option json :=
  match parseNumber n i with
  | Good (NConst f) => Some (JFloat f)
  | Good (NGen g) => match numberGenerate g d with Ok v => Some v | _ => None end
  | Bad _ => None
  end.
Lemma producedF_ok : forall n i d v, producedF n i d = Some v -> producesNumber n i d v.
Proof.
  intros n i d v H. unfold producedF, producesNumber in *. destruct (parseNumber n i) as [[f|g]|]; try discriminate.
  congruence. destruct (numberGenerate g d); congruence.
Qed.


Lemma integer_bounds_refuted : exists n d v x, finiteKeywords n /\ producesNumber n true d v /\
  numberValue v x /\ ~ okMinimum n x.
Proof.
  exists (set_sMinimum (Some (fofZ (2 ^ 63))) (set_sMaximum (Some (fofZ (2 ^ 64))) emptyNode)), 0%Z, (JInt (- 2 ^ 63)), (IZR (- 2 ^ 63)).
  split. repeat split; vm_compute; auto. split. apply producedF_ok. vm_compute. reflexivity. split. reflexivity.
  intros K. specialize (K _ eq_refl). destruct val_2p63 as [V F]. unfold val in V. rewrite V in K.
  change (bpow radix2 63) with (IZR (2 ^ 63)) in K. apply le_IZR in K. lia.
Qed.

Lemma number_exclusive_refuted : exists n d v x, finiteKeywords n /\ sMultipleOf n = None /\
  producesNumber n false d v /\ numberValue v x /\ ~ okExclusiveMinimum n x.
Proof.
  exists (set_sExclusiveMinimum (Some (fofZ 1000)) emptyNode), 0%Z.
  assert (X : match producedF (set_sExclusiveMinimum (Some (fofZ 1000)) emptyNode) false 0 with Some (JFloat f) => B2SF f = B2SF (fofZ 1000) | _ => False end)
    by (vm_compute; reflexivity).
  destruct (producedF _ false 0) as [[| | |f| | |]|] eqn:E; try contradiction.
  apply B2SF_inj in X. subst f. exists (JFloat (fofZ 1000)), 1000.
  split. repeat split; vm_compute; auto. split. reflexivity. split. now apply producedF_ok. split.
  split. apply fofZ_F; lia. now rewrite fofZ_B by lia.
  intros K. specialize (K _ eq_refl). rewrite fofZ_B in K by lia. lra.
Qed.

(* 32.1, 32.2 and 0.1 as decoded from JSON *)
Definition f32_1 : f64 := fdiv (fofZ 321) (fofZ 10).
Definition f32_2 : f64 := fdiv (fofZ 322) (fofZ 10).
Definition f0_1 : f64 := fdiv (fofZ 1) (fofZ 10).
Definition exMul : schemaNode := set_sMinimum (Some f32_1) (set_sMaximum (Some f32_2) (set_sMultipleOf (Some f0_1) emptyNode)).

Lemma number_multiple_refuted : exists n d v x, finiteKeywords n /\ producesNumber n false d v /\
  numberValue v x /\ ~ okMaximum n x.
Proof.
  exists exMul, 0%Z.
  assert (X : match producedF exMul false 0 with Some (JFloat f) => is_finite f && fltb f32_2 f | _ => false end = true)
    by (vm_compute; reflexivity).
  destruct (producedF exMul false 0) as [[| | |f| | |]|] eqn:E; [discriminate X|discriminate X|discriminate X| |discriminate X|discriminate X|discriminate X|discriminate X].
  apply andb_prop in X as [F L]. exists (JFloat f), (B2R f).
  split. repeat split; vm_compute; auto. split. now apply producedF_ok. split. now split.
  intros K. specialize (K _ eq_refl).
  apply fltb_lt in L; [|vm_compute; reflexivity|exact F]. unfold val in L. lra.
Qed.

Lemma accept_refuted : exists n x msg, finiteKeywords n /\ isInteger x /\ okBounds n x /\ okMultipleOf n x /\
  parseNumber n true = Bad msg.
Proof.
  exists (set_sMinimum (Some (fofZ 5)) (set_sMaximum (Some (fofZ 5)) emptyNode)), 5, "error parsing number node: minimum and maximum do not allow for any integers"%string.
  split. repeat split; vm_compute; auto. split. now exists 5%Z. split.
  { repeat split; intros a H; try discriminate H; injection H as <-; rewrite fofZ_B by lia; lra. }
  split. intros m H; discriminate H. vm_compute. reflexivity.
Qed.

Lemma accept_multiple_refuted : exists n x msg, finiteKeywords n /\ isInteger x /\ okBounds n x /\ okMultipleOf n x /\
  (exists y, x < y /\ isInteger y /\ okBounds n y) /\ parseNumber n true = Bad msg.
Proof.
  exists (set_sMinimum (Some (fofZ 10)) (set_sMaximum (Some (fofZ 12)) (set_sMultipleOf (Some (fofZ 5)) emptyNode))), 10.
  exists "error parsing number node: minimum and maximum do not allow for any multiples of multipleOf"%string.
  split. repeat split; vm_compute; auto. split. now exists 10%Z. split.
  { repeat split; intros a H; try discriminate H; injection H as <-; rewrite fofZ_B by lia; lra. }
  split. intros m H. injection H as <-. exists 2%Z. rewrite fofZ_B by lia. lra.
  split.
  { exists 12. split. lra. split. now exists 12%Z. repeat split; intros a H; try discriminate H; injection H as <-; rewrite fofZ_B by lia; lra. }
  vm_compute. reflexivity.
Qed.

(* {"minimum": 1.5, "exclusiveMaximum": 20, "multipleOf": 0.75} *)
Definition exStep : schemaNode :=
  set_sMinimum (Some (fof 3 (-1))) (set_sExclusiveMaximum (Some (fofZ 20)) (set_sMultipleOf (Some (fof 3 (-2))) emptyNode)).
Lemma fof_value : forall m e, (Z.abs m <= 2 ^ 20)%Z -> (-2 <= e <= 0)%Z -> is_finite (fof m e) = true /\ B2R (fof m e) = IZR m * bpow radix2 e.
Proof.
  intros m e Hm He. unfold fof.
  pose proof (binary_normalize_correct 53 1024 prec53 emax1024 mode_NE m e false) as C. cbv zeta in C.
  assert (FF : F64 (F2R (Float radix2 m e))) by (unfold F2R; simpl Fnum; simpl Fexp; apply F64_small; lia).
  assert (R0 : round radix2 fexp64 (round_mode mode_NE) (F2R (Float radix2 m e)) = F2R (Float radix2 m e)) by (apply rnd_id; exact FF).
  change (SpecFloat.fexp 53 1024) with fexp64 in C. rewrite R0 in C.
  assert (B : Rabs (F2R (Float radix2 m e)) < bpow radix2 1024).
  { unfold F2R. simpl Fnum. simpl Fexp. rewrite Rabs_mult, (Rabs_pos_eq (bpow _ _)) by apply bpow_ge_0. rewrite <- abs_IZR.
    apply Rle_lt_trans with (IZR (Z.abs m) * 1); [apply Rmult_le_compat_l; [apply IZR_le; lia|]; change 1 with (bpow radix2 0); apply bpow_le; lia|].
    rewrite Rmult_1_r. apply small_ov. lia. }
  rewrite Rlt_bool_true in C by exact B. destruct C as (C1 & C2 & _). split; [exact C2|exact C1].
Qed.
Lemma exStep_ok : stepped exStep /\ sMultipleOf exStep = Some (fof 3 (-2)) /\ exists v, producesNumber exStep false 7 v.
Proof.
  split.
  { exists 2%Z. split; [lia|]. unfold stepKeywords, exStep.
    cbn [sMinimum sMaximum sExclusiveMinimum sExclusiveMaximum sMultipleOf set_sMinimum set_sExclusiveMaximum set_sMultipleOf emptyNode].
    destruct (fof_value 3 (-1)) as [F1 V1]; [lia|lia|]. destruct (fof_value 3 (-2)) as [F2 V2]; [lia|lia|].
    change (bpow radix2 (-1)) with (/ 2) in V1. change (bpow radix2 (-2)) with (/ 4) in V2.
    assert (B1 : boundedSteps 2 (fof 3 (-1))).
    { split; [exact F1|]. rewrite V1. change (2 ^ 19)%Z with 524288%Z. change (2 ^ 2)%Z with 4%Z. change (2 ^ 30)%Z with 1073741824%Z. rewrite Rabs_pos_eq by lra. split; [lra|right; lra]. }
    assert (B2 : boundedSteps 2 (fofZ 20)).
    { split; [apply fofZ_F; lia|]. rewrite fofZ_B by lia. change (2 ^ 19)%Z with 524288%Z. change (2 ^ 2)%Z with 4%Z. change (2 ^ 30)%Z with 1073741824%Z. rewrite Rabs_pos_eq by lra. split; [lra|right; lra]. }
    split; [intros x E; assert (x = fof 3 (-1)) as -> by exact (eq_sym (f_equal (fun o => get_or o x) E)); exact B1|].
    split; [intros x E; discriminate E|]. split; [intros x E; discriminate E|].
    split; [intros x E; assert (x = fofZ 20) as -> by exact (eq_sym (f_equal (fun o => get_or o x) E)); split; [exact B2|rewrite fofZ_B by lia; rewrite Rabs_pos_eq; lra]|].
    intros x E; assert (x = fof 3 (-2)) as -> by exact (eq_sym (f_equal (fun o => get_or o x) E)). split; [exact F2|]. exists 3%Z. split; [lia|]. rewrite V2. reflexivity. }
  split; [reflexivity|].
  assert (X : match producedF exStep false 7 with Some _ => true | None => false end = true) by (vm_compute; reflexivity).
  destruct (producedF exStep false 7) as [v|] eqn:E; [|discriminate X]. exists v. now apply producedF_ok.
Qed.
