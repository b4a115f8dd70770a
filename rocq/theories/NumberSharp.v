(* An exclusive minimum of 128 or more of a number schema is generated itself. *)
From Coq Require Import ZArith Reals Lia Lra List String Bool.
From Flocq Require Import Core BinarySingleNaN.
From Verif Require Import HcfFacts Base Float64 Json Schema Util Rand Options Number SpecNumber.
From Verif Require Import FloatFacts NumberFacts NumberThm NumberProps NumberRefute.
Open Scope R_scope.

Lemma inf_small : 0 < val infinitesimal < bpow radix2 (-46).
Proof.
  split. { pose proof inf_big. pose proof (bpow_gt_0 radix2 (-47)). lra. }
  assert (K : fltb infinitesimal (fof 1 (-46)) = true) by (vm_compute; reflexivity).
  assert (F1 : fin (fof 1 (-46))) by (vm_compute; reflexivity).
  assert (F2 : fin infinitesimal) by (vm_compute; reflexivity).
  apply (proj1 (fltb_lt _ _ F2 F1)) in K.
  replace (bpow radix2 (-46)) with (val (fof 1 (-46))); [exact K|].
  assert (E : B2SF (fof 1 (-46)) = SpecFloat.S754_finite false 4503599627370496 (-98)) by (vm_compute; reflexivity).
  destruct (val_SF _ _ _ _ E) as [V _]. rewrite V.
  unfold F2R. cbn [Fnum Fexp cond_Zopp]. change (IZR (Z.pos 4503599627370496)) with (bpow radix2 52).
  rewrite <- bpow_plus. reflexivity.
Qed.

Lemma rnd_absorb : forall e d, F64 e -> 128 <= e -> 0 <= d < bpow radix2 (-46) -> rnd (e + d) = e.
Proof.
  intros e d Fe He Hd. apply Rle_antisym.
  - apply round_N_le_midp; auto with typeclass_instances.
    rewrite succ_eq_pos by lra.
    assert (U : bpow radix2 (-45) <= ulp radix2 fexp64 e).
    { replace (bpow radix2 (-45)) with (ulp radix2 fexp64 (bpow radix2 7)).
      - apply ulp_le_pos; auto with typeclass_instances; first [apply bpow_ge_0 | change (bpow radix2 7) with 128; lra].
      - rewrite ulp_bpow. reflexivity. }
    change (bpow radix2 (-45)) with (bpow radix2 (1 + -46)) in U. rewrite bpow_plus in U. change (bpow radix2 1) with 2 in U. lra.
  - apply rnd_ge; auto. lra.
Qed.

(* the schema {"type":"number","exclusiveMinimum":e,"maximum":b} *)
Lemma exclusive_generated : forall n e b, sMultipleOf n = None -> sMinimum n = None -> sExclusiveMaximum n = None ->
  sExclusiveMinimum n = Some e -> sMaximum n = Some b -> is_finite e = true -> is_finite b = true ->
  128 <= B2R e -> B2R e < B2R b -> B2R b <= IZR (2 ^ 53) ->
  exists v, producesNumber n false 0 v /\ numberValue v (B2R e).
Proof.
  intros n e b E1 E2 E3 E4 E5 Fe Fb He Heb Hb.
  assert (Fi : fin infinitesimal) by (vm_compute; reflexivity). pose proof inf_small as Hi.
  assert (Ve : rnd (val e + val infinitesimal) = val e). { apply rnd_absorb; [apply val_format|exact He|lra]. }
  destruct (fadd_correct e infinitesimal Fe Fi) as [VM FM].
  { rewrite Ve. apply (abs_B2R_lt_emax 53 1024). }
  rewrite Ve in VM. set (mn := fadd e infinitesimal) in *.
  assert (LB : val lowerBound < 0).
  { assert (K : fltb lowerBound fzero = true) by (vm_compute; reflexivity). destruct lower_val as [FL _].
    apply (proj1 (fltb_lt lowerBound fzero FL eq_refl)) in K. rewrite val_fzero in K. exact K. }
  assert (CM : clampMin mn = mn).
  { unfold clampMin. replace (fltb mn lowerBound) with false; auto. symmetry. destruct lower_val as [FL _].
    apply fltb_ge; auto. unfold val in *. lra. }
  assert (CX : clampMax b = b).
  { unfold clampMax. replace (fltb upperBound b) with false; auto. symmetry. destruct upper_fin as [FU _]. pose proof upper_big.
    apply fltb_ge; auto. unfold val in *. lra. }
  assert (R : resolveMinMax n false = Good (mn, b)).
  { unfold resolveMinMax. rewrite E1, E2, E3, E4, E5. cbv zeta. unfold rawMin, rawMax. cbn [addIfNotNil maxFloatPtr minFloatPtr get_or].
    fold mn.
    assert (D : forall o, defaultRange mn b o = (mn, b)).
    { intros o. unfold defaultRange.
      replace (is_inf_neg mn) with false by (unfold fin in FM; destruct mn as [|[]| |]; try reflexivity; discriminate FM).
      replace (is_inf_pos b) with false by (destruct b as [|[]| |]; try reflexivity; discriminate Fb). reflexivity. }
    rewrite D, CM, CX. cbn [andb].
    replace (fltb b mn) with false; [reflexivity|]. symmetry. apply fltb_ge; auto. unfold val in *. lra. }
  assert (NE : feqb mn b = false). { apply feqb_neq; auto. unfold val in *. lra. }
  assert (RZ : fin (rfloat 0) /\ val (rfloat 0) = 0).
  { split; [vm_compute; reflexivity|]. assert (Z : feqb (rfloat 0) fzero = true) by (vm_compute; reflexivity).
    assert (FZ : fin (rfloat 0)) by (vm_compute; reflexivity). apply (proj1 (feqb_eq (rfloat 0) fzero FZ eq_refl)) in Z. rewrite val_fzero in Z. exact Z. }
  destruct RZ as [FZ VZ].
  assert (SM : Rabs (rnd (val b - val mn)) < bpow radix2 1024).
  { apply Rle_lt_trans with (IZR (2 ^ 53)); [|apply small_ov; lia].
    apply abs_rnd_le; [apply F64_IZR; lia|]. unfold val in *. rewrite Rabs_pos_eq; lra. }
  destruct (fsub_correct b mn Fb FM SM) as [VS FS].
  destruct (fmul_correct (rfloat 0) (fsub b mn) FZ FS) as [VP FP].
  { rewrite VZ, Rmult_0_l, rnd_0, Rabs_R0. apply bpow_gt_0. }
  rewrite VZ, Rmult_0_l, rnd_0 in VP.
  destruct (fadd_correct (fmul (rfloat 0) (fsub b mn)) mn FP FM) as [VR FR].
  { rewrite VP, Rplus_0_l, rnd_id by apply val_format. apply (abs_B2R_lt_emax 53 1024). }
  rewrite VP, Rplus_0_l, rnd_id in VR by apply val_format. fold (randomFloat mn b 0) in VR, FR.
  exists (JFloat (randomFloat mn b 0)). split.
  - unfold producesNumber, parseNumber. rewrite R, NE, E1. cbn [get_or].
    unfold numberGenerate, numberRaw. simpl nInt. simpl nMul. simpl nMin. simpl nMax. cbv iota.
    replace (feqb fzero fzero) with true by (symmetry; reflexivity). cbn [bind]. f_equal.
    unfold numberFinish. simpl nInt. simpl nMul. replace (feqb fzero fzero) with true by (symmetry; reflexivity).
    replace (is_zero (randomFloat mn b 0)) with false; [reflexivity|]. symmetry.
    destruct (is_zero (randomFloat mn b 0)) eqn:Z; [|reflexivity]. apply is_zero_val in Z; auto. unfold val in *. lra.
  - split; [exact FR|]. unfold val in *. lra.
Qed.

(* the schema with exclusiveMinimum 1000 and maximum 2000 is one of them *)
Lemma sharp_case : let n := set_sExclusiveMinimum (Some (fofZ 1000)) (set_sMaximum (Some (fofZ 2000)) emptyNode) in
  sMultipleOf n = None /\ sMinimum n = None /\ sExclusiveMaximum n = None /\
  sExclusiveMinimum n = Some (fofZ 1000) /\ sMaximum n = Some (fofZ 2000) /\
  is_finite (fofZ 1000) = true /\ is_finite (fofZ 2000) = true /\
  128 <= B2R (fofZ 1000) /\ B2R (fofZ 1000) < B2R (fofZ 2000) /\ B2R (fofZ 2000) <= IZR (2 ^ 53).
Proof.
  cbv zeta. split; [exact eq_refl|]. split; [exact eq_refl|]. split; [exact eq_refl|]. split; [exact eq_refl|]. split; [exact eq_refl|].
  split; [apply fofZ_F; lia|]. split; [apply fofZ_F; lia|]. rewrite !fofZ_B by lia.
  split; [lra|]. split; [lra|]. apply IZR_le. lia.
Qed.
