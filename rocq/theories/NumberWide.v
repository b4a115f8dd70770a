(* Integer schemas whose bounds may be anything an int64 can hold. *)
From Coq Require Import ZArith Reals Lia Lra List String Bool.
From Flocq Require Import Core BinarySingleNaN.
From Verif Require Import HcfFacts Base Float64 Json Schema Util Rand Options Number SpecNumber.
From Verif Require Import FloatFacts NumberFacts NumberThm NumberProps NumberRefute.
Open Scope R_scope.

Lemma excl_wide : forall e : f64, is_finite e = true -> Rabs (B2R e) < IZR (2 ^ 53) ->
  B2R e < rnd (B2R e + 1) /\ rnd (B2R e - 1) < B2R e.
Proof.
  intros e F H.
  assert (K : Rabs (B2R e) < bpow radix2 53) by exact H.
  assert (P : bpow radix2 (53 - 54) < 1).
  { change 1 with (bpow radix2 0). apply bpow_lt. lia. }
  split.
  - apply rnd_gt with 53%Z; auto. apply val_format. lia.
  - apply rnd_lt with 53%Z; auto. apply val_format. lia.
Qed.

(* the int64 the generator converts to holds the value it rounded *)
Lemma finish_wide : forall g r z, nInt g = true -> fin r -> val r = IZR z -> (- 2 ^ 63 <= z < 2 ^ 63)%Z ->
  numberFinish g r = JInt z.
Proof.
  intros g r z Hi Fr Vr Hz. unfold numberFinish. rewrite Hi. destruct (is_zero r) eqn:E.
  - apply is_zero_val in E; auto. rewrite Vr in E. apply eq_IZR in E. now subst.
  - f_equal. apply int_of_f64_val; auto.
Qed.

Lemma wide_main : forall n d p a b, numFinite n -> sMultipleOf n = None -> sMinimum n = Some a -> sMaximum n = Some b ->
  - IZR (2 ^ 63) <= val a -> val b < IZR (2 ^ 63) -> parseNumber n true = Good p ->
  exists v z mn mx, resolveMinMax n true = Good (mn, mx) /\
    (match p with NConst f => v = JFloat f | NGen g => numberGenerate g d = Ok v end) /\
    num_value v = Some (IZR z) /\ val mn <= IZR z <= val mx.
Proof.
  intros n d p a b HF HM Ha Hb La Lb HP.
  destruct (parseNumber_inv _ _ _ HP) as (mn & mx & HR & HC).
  destruct (resolve_spec _ _ _ _ HF HR) as (F1 & F2 & _ & Hle & _ & HI & S1 & S2 & _).
  destruct (HI eq_refl) as [[x Vx] [y Vy]]. specialize (S1 _ Ha). specialize (S2 _ Hb).
  destruct HC as [[E ->]|[E ->]].
  - exists (JFloat mn), x, mn, mx. simpl. unfold val, fin in *. rewrite F1, Vx. repeat split; auto; lra.
  - rewrite HM. cbn [get_or].
    destruct (randomFloat_range mn mx d) as [FR RR]; auto.
    { apply Rle_lt_trans with (bpow radix2 64).
      - apply abs_rnd_le. apply generic_format_bpow. rewrite fexp64_FLT; unfold FLT_exp; lia.
        rewrite Rabs_pos_eq by lra. change (bpow radix2 64) with (IZR (2 ^ 63 + 2 ^ 63)). rewrite plus_IZR. lra.
      - apply bpow_lt; lia. }
    destruct (fround_val _ FR) as [VR FR']. rewrite Vx, Vy in RR. apply ZnearestA_between in RR.
    set (z := ZnearestA (val (randomFloat mn mx d))) in *.
    exists (JInt z), z, mn, mx. split; auto. split.
    { unfold numberGenerate, numberRaw. simpl nInt. simpl nMul. simpl nMin. simpl nMax. cbv iota.
      replace (feqb fzero fzero) with true by (symmetry; reflexivity). cbn [bind]. f_equal.
      apply finish_wide; auto.
      assert (X : IZR (- 2 ^ 63) <= IZR x) by (rewrite opp_IZR; lra). apply le_IZR in X.
      assert (Y : IZR y < IZR (2 ^ 63)) by lra. apply lt_IZR in Y. lia. }
    split; auto. rewrite Vx, Vy. split; apply IZR_le; lia.
Qed.

Lemma integer_wide : forall n d v a b, finiteKeywords n -> sMultipleOf n = None -> sMinimum n = Some a -> sMaximum n = Some b ->
  - IZR (2 ^ 63) <= B2R a -> B2R b < IZR (2 ^ 63) ->
  (forall e, sExclusiveMinimum n = Some e \/ sExclusiveMaximum n = Some e -> Rabs (B2R e) < IZR (2 ^ 53)) ->
  producesNumber n true d v ->
  exists z : Z, numberValue v (IZR z) /\ okBounds n (IZR z).
Proof.
  intros n d v a b HF HM Ha Hb La Lb HE HP. unfold producesNumber in HP.
  destruct (parseNumber n true) as [p|] eqn:E; [|contradiction].
  destruct (wide_main n d p a b HF HM Ha Hb La Lb E) as (v' & z & mn & mx & HR & HV & NV & HB).
  assert (v' = v). { destruct p; congruence. } subst v'.
  destruct (resolve_spec _ _ _ _ HF HR) as (_ & _ & _ & _ & _ & _ & S1 & S2 & S3 & S4 & _).
  change (excl_off true) with (fofZ 1) in *. rewrite one_val in *. unfold val in *.
  exists z. split; [now apply num_value_spec|].
  destruct HF as (_ & _ & K3 & K4 & _). repeat split; intros e He.
  - specialize (S1 e He). lra.
  - specialize (S2 e He). lra.
  - specialize (S3 e He). rewrite He in K3. pose proof (excl_wide e K3 (HE e (or_introl He))). lra.
  - specialize (S4 e He). rewrite He in K4. pose proof (excl_wide e K4 (HE e (or_intror He))). lra.
Qed.

Lemma wide_total : forall n d a b, finiteKeywords n -> sMultipleOf n = None -> sMinimum n = Some a -> sMaximum n = Some b ->
  - IZR (2 ^ 63) <= B2R a -> B2R b < IZR (2 ^ 63) ->
  (exists p, parseNumber n true = Good p) -> exists v, producesNumber n true d v.
Proof.
  intros n d a b HF HM Ha Hb La Lb [p E].
  destruct (wide_main n d p a b HF HM Ha Hb La Lb E) as (v & z & mn & mx & _ & HV & _).
  exists v. unfold producesNumber. rewrite E. destruct p; auto.
Qed.

(* {"type":"integer","exclusiveMinimum":2^53,"maximum":2^53+2}: 2^53 + 1 is rounded to 2^53 *)
Definition exclBig : schemaNode :=
  set_sExclusiveMinimum (Some (fofZ (2 ^ 53))) (set_sMaximum (Some (fofZ (2 ^ 53 + 2))) emptyNode).

Lemma exclusive_int_refuted : exists n d v x e, sMultipleOf n = None /\ sExclusiveMinimum n = Some e /\ B2R e = IZR (2 ^ 53) /\
  producesNumber n true d v /\ numberValue v x /\ ~ okExclusiveMinimum n x.
Proof.
  exists exclBig, 0%Z, (JInt (2 ^ 53)), (IZR (2 ^ 53)), (fofZ (2 ^ 53)).
  split. exact eq_refl. split. exact eq_refl. split. apply fofZ_B; lia.
  split. { apply producedF_ok. vm_compute. reflexivity. }
  split. exact eq_refl.
  intros K. specialize (K _ eq_refl). rewrite fofZ_B in K by lia. lra.
Qed.

(* {"type":"integer","minimum":-2^62,"maximum":2^62} *)
Definition exWide : schemaNode :=
  set_sMinimum (Some (fofZ (- 2 ^ 62))) (set_sMaximum (Some (fofZ (2 ^ 62))) emptyNode).

Lemma wide_case : exists a b v, finiteKeywords exWide /\ sMultipleOf exWide = None /\
  sMinimum exWide = Some a /\ sMaximum exWide = Some b /\ - IZR (2 ^ 63) <= B2R a /\ B2R b < IZR (2 ^ 63) /\
  (forall e, sExclusiveMinimum exWide = Some e \/ sExclusiveMaximum exWide = Some e -> Rabs (B2R e) < IZR (2 ^ 53)) /\
  producesNumber exWide true 1 v.
Proof.
  assert (V : B2R (fofZ (2 ^ 62)) = IZR (2 ^ 62)).
  { assert (X : fofZ (2 ^ 62) = fmul (fofZ (2 ^ 31)) (fofZ (2 ^ 31))).
    { apply B2SF_inj. vm_compute. reflexivity. }
    rewrite X. destruct (fofZ_exact (2 ^ 31)) as [W F]; [lia|].
    assert (Y : rnd (val (fofZ (2 ^ 31)) * val (fofZ (2 ^ 31))) = IZR (2 ^ 62)).
    { rewrite W, <- mult_IZR. change (IZR (2 ^ 31 * 2 ^ 31)) with (bpow radix2 62). change (IZR (2 ^ 62)) with (bpow radix2 62).
      apply rnd_id. apply generic_format_bpow. rewrite fexp64_FLT; unfold FLT_exp; lia. }
    destruct (fmul_correct (fofZ (2 ^ 31)) (fofZ (2 ^ 31)) F F) as [A _].
    { rewrite Y. rewrite Rabs_pos_eq by (apply IZR_le; lia). change (IZR (2 ^ 62)) with (bpow radix2 62). apply bpow_lt; lia. }
    unfold val in *. congruence. }
  assert (U : B2R (fofZ (- 2 ^ 62)) = - IZR (2 ^ 62)).
  { assert (X : fofZ (- 2 ^ 62) = fneg (fofZ (2 ^ 62))).
    { apply B2SF_inj. vm_compute. reflexivity. }
    rewrite X. unfold fneg. rewrite B2R_Bopp, V. exact eq_refl. }
  assert (PG : exists p, parseNumber exWide true = Good p).
  { destruct (parseNumber exWide true) as [p|m] eqn:E; [eauto|]. exfalso.
    assert (K : match parseNumber exWide true with Good _ => true | Bad _ => false end = true) by (vm_compute; reflexivity).
    rewrite E in K. discriminate K. }
  assert (L1 : - IZR (2 ^ 63) <= B2R (fofZ (- 2 ^ 62))).
  { rewrite U. assert (IZR (2 ^ 62) <= IZR (2 ^ 63)) by (apply IZR_le; lia). lra. }
  assert (L2 : B2R (fofZ (2 ^ 62)) < IZR (2 ^ 63)) by (rewrite V; apply IZR_lt; lia).
  assert (FK : finiteKeywords exWide) by (repeat split; vm_compute; auto).
  destruct (wide_total exWide 1 (fofZ (- 2 ^ 62)) (fofZ (2 ^ 62)) FK eq_refl eq_refl eq_refl L1 L2 PG) as [v HV].
  exists (fofZ (- 2 ^ 62)), (fofZ (2 ^ 62)), v.
  split; [exact FK|]. split; [exact eq_refl|]. split; [exact eq_refl|]. split; [exact eq_refl|].
  split; [exact L1|]. split; [exact L2|]. split; [|exact HV].
  intros e [H|H]; discriminate H.
Qed.
