(* Proofs about number.go, rand/random.go and generator.go's retry budget. *)
From Coq Require Import ZArith Reals Lia Lra Bool List String.
From Flocq Require Import Core BinarySingleNaN.
From Verif Require Import Base Float64 Util Rand Json Schema Options Number FloatFacts.
Open Scope R_scope.

(* ---------- integers of floats ---------- *)

Lemma nearby_val : forall md (x : f64), fin x ->
  val (Bnearbyint md x) = IZR (round_mode md (val x)) /\ fin (Bnearbyint md x).
Proof.
  intros md x Hx. pose proof (Bnearbyint_correct 53 1024 emax1024 md x) as (A & B & _).
  split.
  - unfold val. rewrite A. unfold round, scaled_mantissa, cexp, FIX_exp, F2R. simpl.
    now rewrite !Rmult_1_r.
  - unfold fin. now rewrite B.
Qed.

Lemma ffloor_val : forall x, fin x -> val (ffloor x) = IZR (Zfloor (val x)) /\ fin (ffloor x).
Proof. intros. apply (nearby_val mode_DN); auto. Qed.
Lemma fceil_val : forall x, fin x -> val (fceil x) = IZR (Zceil (val x)) /\ fin (fceil x).
Proof. intros. apply (nearby_val mode_UP); auto. Qed.
Lemma fround_val : forall x, fin x -> val (fround x) = IZR (ZnearestA (val x)) /\ fin (fround x).
Proof. intros. apply (nearby_val mode_NA); auto. Qed.
Lemma ftrunc_val : forall x, fin x -> val (ftrunc x) = IZR (Ztrunc (val x)) /\ fin (ftrunc x).
Proof. intros. apply (nearby_val mode_ZR); auto. Qed.

Lemma ZnearestA_between : forall a b x, IZR a <= x <= IZR b -> (a <= ZnearestA x <= b)%Z.
Proof.
  intros a b x [H1 H2]. split.
  - rewrite <- (Zrnd_IZR ZnearestA a). apply Zrnd_le; auto with typeclass_instances.
  - rewrite <- (Zrnd_IZR ZnearestA b). apply Zrnd_le; auto with typeclass_instances.
Qed.

Lemma int_of_f64_val : forall x z, fin x -> val x = IZR z -> (- 2 ^ 63 <= z < 2 ^ 63)%Z -> int_of_f64 x = z.
Proof.
  intros x z Hf Hv Hz.
  assert (T : Btrunc x = z).
  { apply eq_IZR. pose proof (Btrunc_correct 53 1024 emax1024 x) as C. rewrite C.
    unfold val in Hv. rewrite Hv.
    unfold round, scaled_mantissa, cexp, FIX_exp, F2R. simpl. rewrite !Rmult_1_r. now rewrite Ztrunc_IZR. }
  unfold int_of_f64. destruct x as [s| | |s m e B]; try discriminate Hf.
  - cbv zeta. rewrite T. now replace ((- 2 ^ 63 <=? z) && (z <? 2 ^ 63))%Z with true by (symmetry; apply andb_true_intro; split; lia).
  - cbv zeta. rewrite T. now replace ((- 2 ^ 63 <=? z) && (z <? 2 ^ 63))%Z with true by (symmetry; apply andb_true_intro; split; lia).
Qed.

Lemma int_of_f64_range : forall x, (- 2 ^ 63 <= int_of_f64 x < 2 ^ 63)%Z.
Proof.
  intros x. unfold int_of_f64. destruct x; try lia; cbv zeta;
  match goal with |- context [if ?b then _ else _] => destruct b eqn:E end; try lia;
  apply andb_prop in E; lia.
Qed.

Lemma wrap64_id : forall z, (- 2 ^ 63 <= z < 2 ^ 63)%Z -> wrap64 z = z.
Proof. intros. unfold wrap64. rewrite Z.mod_small by lia. lia. Qed.

(* ---------- RandomInt ---------- *)

Lemma randomInt_spec : forall mn mx d, (- 2 ^ 63 <= mn)%Z -> (mx < 2 ^ 63)%Z -> (mx - mn < 2 ^ 63)%Z ->
  (mn <= mx)%Z -> exists r, randomInt mn mx d = Ok r /\ (mn <= r)%Z /\ (r < mx \/ (r = mx /\ mn = mx))%Z.
Proof.
  intros mn mx d H1 H2 H3 H. unfold randomInt.
  destruct (Z.eqb_spec mn mx) as [E|E].
  - exists mn. repeat split; lia.
  - rewrite wrap64_id by lia. unfold intn. destruct (Z.leb_spec (mx - mn) 0); [lia|].
    simpl. pose proof (Z.mod_pos_bound d (mx - mn)).
    rewrite wrap64_id by lia. eexists; split; eauto. lia.
Qed.

Lemma randomInt_onto : forall mn mx r, (- 2 ^ 63 <= mn)%Z -> (mx < 2 ^ 63)%Z -> (mx - mn < 2 ^ 63)%Z ->
  (mn <= r < mx)%Z -> exists d, randomInt mn mx d = Ok r.
Proof.
  intros mn mx r H1 H2 H3 H. exists (r - mn)%Z. unfold randomInt.
  destruct (Z.eqb_spec mn mx); [lia|].
  rewrite wrap64_id by lia. unfold intn. destruct (Z.leb_spec (mx - mn) 0); [lia|].
  simpl. rewrite Z.mod_small by lia. rewrite wrap64_id by lia. f_equal; lia.
Qed.

(* ---------- bounds ---------- *)

(* a bound coming from a JSON document is a finite float *)
Definition ofin (o : option f64) : Prop := match o with Some x => fin x | None => True end.
Definition obound (B : R) (o : option f64) : Prop := match o with Some x => fin x /\ Rabs (val x) <= B | None => True end.

Lemma val_fzero : val fzero = 0. Proof. reflexivity. Qed.

Lemma upper_fin : fin upperBound /\ 0 < val upperBound <= bpow radix2 1015.
Proof.
  split. vm_compute; reflexivity.
  split.
  - assert (K : fltb fzero upperBound = true) by (vm_compute; reflexivity).
    apply fltb_lt in K; auto.
  - assert (K : fleb upperBound (fof 1 1015) = true) by (vm_compute; reflexivity).
    apply fleb_le in K; try (vm_compute; reflexivity).
    replace (bpow radix2 1015) with (val (fof 1 1015)); auto.
    unfold val, fof. pose proof (binary_normalize_correct 53 1024 prec53 emax1024 mode_NE 1 1015 false) as C.
    cbv zeta in C. 
    assert (HB : F2R (Float radix2 1 1015) = bpow radix2 1015) by (unfold F2R; simpl Fnum; simpl Fexp; ring).
    rewrite HB in C.
    assert (FB : F64 (bpow radix2 1015)). { apply generic_format_bpow. rewrite fexp64_FLT. unfold FLT_exp. lia. }
    rewrite rnd_id in C by auto.
    rewrite Rlt_bool_true in C. apply C.
    rewrite Rabs_pos_eq by apply bpow_ge_0. apply bpow_lt; lia.
Qed.

Lemma lower_val : fin lowerBound /\ val lowerBound = - val upperBound.
Proof.
  split. vm_compute; reflexivity. unfold lowerBound, fneg, val. apply B2R_Bopp.
Qed.


Definition notnan (x : f64) : Prop := is_nanb x = false.

Lemma fin_notnan : forall x, fin x -> notnan x.
Proof. intros [| | |]; unfold fin, notnan; simpl; congruence. Qed.

Lemma clampMin_spec : forall x, notnan x -> fin (clampMin x) \/ clampMin x = finf.
Proof.
  intros x H. unfold clampMin. destruct (fltb x lowerBound) eqn:E. left; apply lower_val.
  destruct x as [s|[]| |s m e B]; try (left; reflexivity); try discriminate H.
  - vm_compute in E. discriminate.
  - right; reflexivity.
Qed.

Lemma clampMin_ge : forall x, fin x -> val x <= val (clampMin x).
Proof.
  intros x H. unfold clampMin. destruct (fltb x lowerBound) eqn:E; [|lra].
  apply fltb_lt in E; auto. lra. apply lower_val.
Qed.

Lemma clampMin_lower : forall x, fin (clampMin x) -> val lowerBound <= val (clampMin x).
Proof.
  intros x. unfold clampMin. destruct (fltb x lowerBound) eqn:E; [lra|].
  intros. apply fltb_ge in E; auto. apply lower_val.
Qed.

Lemma clampMax_spec : forall x, notnan x -> fin (clampMax x) \/ clampMax x = fninf.
Proof.
  intros x H. unfold clampMax. destruct (fltb upperBound x) eqn:E. left; apply upper_fin.
  destruct x as [s|[]| |s m e B]; try (left; reflexivity); try discriminate H.
  - right; reflexivity.
  - vm_compute in E. discriminate.
Qed.

Lemma clampMax_le : forall x, fin x -> val (clampMax x) <= val x.
Proof.
  intros x H. unfold clampMax. destruct (fltb upperBound x) eqn:E; [|lra].
  apply fltb_lt in E; auto. lra. apply upper_fin.
Qed.

Lemma clampMax_upper : forall x, fin (clampMax x) -> val (clampMax x) <= val upperBound.
Proof.
  intros x. unfold clampMax. destruct (fltb upperBound x) eqn:E; [lra|].
  intros. apply fltb_ge in E; auto. apply upper_fin.
Qed.

(* sums of finite floats are never NaN *)
Lemma fadd_notnan : forall x y, fin x -> notnan y -> notnan (fadd x y).
Proof.
  intros x y Hx Hy. destruct y as [sy|sy| |sy my ey By]; try discriminate Hy.
  - pose proof (Bplus_correct 53 1024 prec53 emax1024 mode_NE x (B754_zero sy) Hx eq_refl) as C.
    destruct (Rlt_bool _ _).
    + apply fin_notnan. apply C.
    + destruct C as [C _]. unfold fadd. destruct (Bplus mode_NE x (B754_zero sy)); try reflexivity.
      unfold B2SF in C. unfold binary_overflow in C. destruct (overflow_to_inf _ _); discriminate C.
  - destruct x; try discriminate Hx; reflexivity.
  - pose proof (Bplus_correct 53 1024 prec53 emax1024 mode_NE x (B754_finite sy my ey By) Hx eq_refl) as C.
    destruct (Rlt_bool _ _).
    + apply fin_notnan. apply C.
    + destruct C as [C _]. unfold fadd. destruct (Bplus mode_NE x _); try reflexivity.
      unfold B2SF in C. unfold binary_overflow in C. destruct (overflow_to_inf _ _); discriminate C.
Qed.

Lemma fneg_notnan : forall y, notnan y -> notnan (fneg y).
Proof. intros [| | |]; auto. Qed.

Lemma fsub_notnan : forall x y, fin x -> notnan y -> notnan (fsub x y).
Proof.
  intros. replace (fsub x y) with (fadd x (fneg y)). apply fadd_notnan; auto. now apply fneg_notnan.
  destruct x, y; reflexivity.
Qed.

Lemma fmul_notnan : forall x y, fin x -> fin y -> notnan (fmul x y).
Proof.
  intros x y Hx Hy. pose proof (Bmult_correct 53 1024 prec53 emax1024 mode_NE x y) as C.
  destruct (Rlt_bool _ _).
  - apply fin_notnan. destruct C as (_ & C & _). unfold fin, fmul. rewrite C, Hx, Hy. reflexivity.
  - unfold fmul. destruct (Bmult mode_NE x y); try reflexivity.
    unfold B2SF, binary_overflow in C. destruct (overflow_to_inf _ _); discriminate C.
Qed.

Lemma val_SF : forall (x : f64) s m e, B2SF x = SpecFloat.S754_finite s m e ->
  val x = IZR (cond_Zopp s (Zpos m)) * bpow radix2 e /\ fin x.
Proof.
  intros x s m e H. split.
  - unfold val. rewrite <- SF2R_B2SF, H. reflexivity.
  - destruct x; try discriminate H. reflexivity.
Qed.

Lemma maxFloat_val : val maxFloat64 = bpow radix2 1024 - bpow radix2 971 /\ fin maxFloat64.
Proof.
  destruct (val_SF maxFloat64 false 9007199254740991 971) as [A B]. vm_compute; reflexivity.
  split; auto. rewrite A. simpl cond_Zopp.
  replace (Z.pos 9007199254740991) with (2 ^ 53 - 1)%Z by reflexivity.
  rewrite minus_IZR. change (IZR (2 ^ 53)) with (bpow radix2 53). rewrite Rmult_minus_distr_r, <- bpow_plus.
  change (53 + 971)%Z with 1024%Z. ring.
Qed.

Lemma rnd_max1 : rnd (val maxFloat64 + 1) < bpow radix2 1024.
Proof.
  destruct maxFloat_val as [A B]. destruct (fofZ_exact 1) as [V1 F1]. lia.
  pose proof (Bplus_correct 53 1024 prec53 emax1024 mode_NE maxFloat64 (fofZ 1) B F1) as C.
  destruct (Rlt_bool_spec (Rabs (rnd (B2R maxFloat64 + B2R (fofZ 1)))) (bpow radix2 1024)) as [L|L].
  - unfold val in *. rewrite V1 in L. pose proof (Rle_abs (rnd (B2R maxFloat64 + 1))). lra.
  - rewrite Rlt_bool_false in C by exact L. destruct C as [C _]. exfalso. revert C. vm_compute. discriminate.
Qed.

Lemma fadd_small : forall x o, fin x -> fin o -> Rabs (val o) <= 1 ->
  val (fadd x o) = rnd (val x + val o) /\ fin (fadd x o).
Proof.
  intros x o Hx Ho Hs. apply fadd_correct; auto.
  assert (M : Rabs (val x) <= val maxFloat64).
  { destruct maxFloat_val as [A _]. rewrite A. apply (abs_B2R_le_emax_minus_prec 53 1024 prec53 x). }
  apply Rle_lt_trans with (2 := rnd_max1).
  apply Rabs_le_inv in M. apply Rabs_le_inv in Hs.
  apply Rabs_le. split.
  - replace (- rnd (val maxFloat64 + 1)) with (rnd (- (val maxFloat64 + 1))).
    + apply rnd_le; lra.
    + apply round_NE_opp.
  - apply rnd_le; lra.
Qed.

Lemma inf_val : fin infinitesimal /\ 99 / 100 * bpow radix2 (-46) * (7 / 10) <= val infinitesimal <= bpow radix2 (-46) * (71 / 100).
Proof.
  destruct (val_SF infinitesimal false 6338253001141147 (-99)) as [A B]. vm_compute; reflexivity.
  split; auto. rewrite A. simpl cond_Zopp.
  change (-99)%Z with (-53 + -46)%Z. rewrite bpow_plus.
  assert (H : bpow radix2 (-53) = / 9007199254740992) by reflexivity. rewrite H.
  pose proof (bpow_gt_0 radix2 (-46)). set (b := bpow radix2 (-46)) in *. split; nra.
Qed.

(* the offset used for exclusive bounds *)
Definition excl_off (integer : bool) : f64 := if integer then fofZ 1 else infinitesimal.

Lemma excl_off_val : forall i, fin (excl_off i) /\ 0 < val (excl_off i) <= 1.
Proof.
  intros [|]; unfold excl_off.
  - destruct (fofZ_exact 1) as [A B]. lia. rewrite A. split; auto. lra.
  - destruct inf_val as [A B]. split; auto.
    assert (H : bpow radix2 (-46) = / 70368744177664) by reflexivity. rewrite H in B. lra.
Qed.

Lemma rawMin_spec : forall mn xmn i, ofin mn -> ofin xmn ->
  let r := rawMin mn xmn (excl_off i) in
  (mn = None /\ xmn = None /\ r = fninf) \/
  (fin r /\ (forall a, mn = Some a -> val a <= val r) /\
   (forall e, xmn = Some e -> rnd (val e + val (excl_off i)) <= val r)).
Proof.
  intros mn xmn i H1 H2 r. unfold r, rawMin. destruct (excl_off_val i) as [Fo Vo].
  assert (Ra : Rabs (val (excl_off i)) <= 1) by (rewrite Rabs_pos_eq; lra).
  destruct mn as [a|], xmn as [e|]; simpl in *.
  - right. destruct (fadd_small e (excl_off i)) as [V F]; auto.
    destruct (fltb a (fadd e (excl_off i))) eqn:E; simpl.
    + apply fltb_lt in E; auto. repeat split; auto; intros ? K; injection K as <-; lra.
    + apply fltb_ge in E; auto. repeat split; auto; intros ? K; injection K as <-; lra.
  - right. repeat split; auto; intros ? K; try discriminate; injection K as <-; lra.
  - right. destruct (fadd_small e (excl_off i)) as [V F]; auto.
    repeat split; auto; intros ? K; try discriminate; injection K as <-; lra.
  - left; auto.
Qed.

Lemma rawMax_spec : forall mx xmx i, ofin mx -> ofin xmx ->
  let r := rawMax mx xmx (excl_off i) in
  (mx = None /\ xmx = None /\ r = finf) \/
  (fin r /\ (forall a, mx = Some a -> val r <= val a) /\
   (forall e, xmx = Some e -> val r <= rnd (val e - val (excl_off i)))).
Proof.
  intros mx xmx i H1 H2 r. unfold r, rawMax. destruct (excl_off_val i) as [Fo Vo].
  assert (Fn : fin (fneg (excl_off i))). { unfold fin, fneg. now rewrite is_finite_Bopp. }
  assert (Vn : val (fneg (excl_off i)) = - val (excl_off i)). { apply B2R_Bopp. }
  assert (Ra : Rabs (val (fneg (excl_off i))) <= 1) by (rewrite Vn, Rabs_Ropp, Rabs_pos_eq; lra).
  unfold Rminus.
  destruct mx as [a|], xmx as [e|]; simpl in *.
  - right. destruct (fadd_small e (fneg (excl_off i))) as [V F]; auto. rewrite Vn in V.
    destruct (fltb (fadd e (fneg (excl_off i))) a) eqn:E; simpl.
    + apply fltb_lt in E; auto. repeat split; auto; intros ? K; injection K as <-; lra.
    + apply fltb_ge in E; auto. repeat split; auto; intros ? K; injection K as <-; lra.
  - right. repeat split; auto; intros ? K; try discriminate; injection K as <-; lra.
  - right. destruct (fadd_small e (fneg (excl_off i))) as [V F]; auto. rewrite Vn in V.
    repeat split; auto; intros ? K; try discriminate; injection K as <-; lra.
  - left; auto.
Qed.

(* all numeric keywords of the node are finite floats, as after json.Unmarshal *)
Definition numFinite (n : schemaNode) : Prop :=
  ofin (sMinimum n) /\ ofin (sMaximum n) /\ ofin (sExclusiveMinimum n) /\ ofin (sExclusiveMaximum n) /\ ofin (sMultipleOf n).

Definition integral (x : f64) : Prop := exists z, val x = IZR z.

Lemma floor_inf : forall b, ffloor (B754_infinity b) = B754_infinity b. Proof. reflexivity. Qed.

Lemma resolve_spec : forall n i mn mx, numFinite n -> resolveMinMax n i = Good (mn, mx) ->
  fin mn /\ fin mx /\ val lowerBound <= val mn /\ val mn <= val mx /\ val mx <= val upperBound /\
  (i = true -> integral mn /\ integral mx) /\
  (forall a, sMinimum n = Some a -> val a <= val mn) /\
  (forall a, sMaximum n = Some a -> val mx <= val a) /\
  (forall e, sExclusiveMinimum n = Some e -> rnd (val e + val (excl_off i)) <= val mn) /\
  (forall e, sExclusiveMaximum n = Some e -> val mx <= rnd (val e - val (excl_off i))) /\
  checkMultipleOf i mn mx (sMultipleOf n) = Good (mn, mx).
Proof.
  intros n i mn mx (N1 & N2 & N3 & N4 & N5) H. unfold resolveMinMax in H.
  fold (excl_off i) in H.
  pose proof (rawMin_spec (sMinimum n) (sExclusiveMinimum n) i N1 N3) as RM.
  pose proof (rawMax_spec (sMaximum n) (sExclusiveMaximum n) i N2 N4) as RX.
  cbv zeta in RM, RX.
  set (mn0 := rawMin (sMinimum n) (sExclusiveMinimum n) (excl_off i)) in *.
  set (mx0 := rawMax (sMaximum n) (sExclusiveMaximum n) (excl_off i)) in *.
  set (off := getFloat (fmul (get_or (sMultipleOf n) fzero) (fofZ 100)) (fofZ defaultOffset)) in *.
  assert (NO : notnan off).
  { unfold off, getFloat. destruct (feqb _ _). apply fin_notnan. vm_compute; reflexivity.
    apply fmul_notnan. destruct (sMultipleOf n); simpl in *; auto. reflexivity. vm_compute; reflexivity. }
  destruct (defaultRange mn0 mx0 off) as [mn1 mx1] eqn:DR.
  assert (D : notnan mn1 /\ notnan mx1 /\ (fin mn0 -> mn1 = mn0) /\ (fin mx0 -> mx1 = mx0)).
  { unfold defaultRange in DR.
    destruct RM as [(_ & _ & EM)|(FM & _)], RX as [(_ & _ & EX)|(FX & _)].
    - rewrite EM, EX in *. simpl in DR. injection DR as <- <-. repeat split; auto; discriminate.
    - rewrite EM in *. simpl in DR. replace (is_inf_pos mx0) with false in DR by (destruct mx0 as [|[]| |]; try reflexivity; discriminate).
      injection DR as <- <-. repeat split; auto; try discriminate. apply fsub_notnan; auto. now apply fin_notnan.
    - rewrite EX in *. replace (is_inf_neg mn0) with false in DR by (destruct mn0 as [|[]| |]; try reflexivity; discriminate).
      simpl in DR. injection DR as <- <-. repeat split; auto; try discriminate. now apply fin_notnan. apply fadd_notnan; auto.
    - replace (is_inf_neg mn0) with false in DR by (destruct mn0 as [|[]| |]; try reflexivity; discriminate).
      replace (is_inf_pos mx0) with false in DR by (destruct mx0 as [|[]| |]; try reflexivity; discriminate).
      simpl in DR. injection DR as <- <-. repeat split; auto; now apply fin_notnan. }
  destruct D as (D1 & D2 & D3 & D4).
  destruct (i && feqb (ffloor (clampMin mn1)) (ffloor (clampMax mx1))) eqn:EI; [discriminate|].
  set (mn3 := if i then fceil (clampMin mn1) else clampMin mn1) in *.
  set (mx3 := if i then ffloor (clampMax mx1) else clampMax mx1) in *.
  destruct (fltb mx3 mn3) eqn:EL; [discriminate|].
  assert (HC : mn = mn3 /\ mx = mx3 /\ checkMultipleOf i mn3 mx3 (sMultipleOf n) = Good (mn3, mx3)).
  { unfold checkMultipleOf in *. destruct (sMultipleOf n).
    - repeat (match goal with HH : context [if ?b then _ else _] |- _ => destruct b eqn:? end; try discriminate).
      injection H as <- <-. auto.
    - injection H as <- <-. auto. }
  destruct HC as (-> & -> & HC).
  assert (Fn : fin (clampMin mn1) /\ fin (clampMax mx1)).
  { destruct (clampMin_spec mn1 D1) as [F1|F1], (clampMax_spec mx1 D2) as [F2|F2]; auto; exfalso; unfold mn3, mx3 in EL;
    rewrite ?F1, ?F2 in EL.
    - destruct i; simpl in EL.
      + pose proof (proj2 (fceil_val _ F1)) as K. destruct (fceil (clampMin mn1)) as [[]| | |[]]; try discriminate K; discriminate EL.
      + destruct (clampMin mn1) as [[]| | |[]]; try discriminate F1; discriminate EL.
    - destruct i; simpl in EL.
      + pose proof (proj2 (ffloor_val _ F2)) as K. destruct (ffloor (clampMax mx1)) as [[]| | |[]]; try discriminate K; discriminate EL.
      + destruct (clampMax mx1) as [[]| | |[]]; try discriminate F2; discriminate EL.
    - destruct i; discriminate EL. }
  destruct Fn as [F1 F2].
  assert (L1 : val (clampMin mn1) <= val mn3).
  { unfold mn3. destruct i; [|lra]. destruct (fceil_val _ F1) as [-> _]. apply Zceil_ub. }
  assert (L2 : val mx3 <= val (clampMax mx1)).
  { unfold mx3. destruct i; [|lra]. destruct (ffloor_val _ F2) as [-> _]. apply Zfloor_lb. }
  assert (F3 : fin mn3). { unfold mn3. destruct i; auto. apply fceil_val; auto. }
  assert (F4 : fin mx3). { unfold mx3. destruct i; auto. apply ffloor_val; auto. }
  apply fltb_ge in EL; auto.
  split; [auto|]. split; [auto|].
  split. { apply Rle_trans with (2 := L1). now apply clampMin_lower. }
  split; [auto|].
  split. { apply Rle_trans with (1 := L2). now apply clampMax_upper. }
  split. { intros ->. unfold mn3, mx3. split; eexists. apply (fceil_val _ F1). apply (ffloor_val _ F2). }
  assert (GE : fin mn0 -> val mn0 <= val mn3).
  { intros F0. rewrite (D3 F0) in *. apply Rle_trans with (2 := L1). now apply clampMin_ge. }
  assert (LE : fin mx0 -> val mx3 <= val mx0).
  { intros F0. rewrite (D4 F0) in *. apply Rle_trans with (1 := L2). now apply clampMax_le. }
  split; [|split; [|split; [|split; auto]]].
  - intros a Ha. destruct RM as [(K & _ & _)|(FM & K & _)]; [congruence|].
    apply Rle_trans with (val mn0); auto.
  - intros a Ha. destruct RX as [(K & _ & _)|(FM & K & _)]; [congruence|].
    apply Rle_trans with (val mx0); auto.
  - intros a Ha. destruct RM as [(_ & K & _)|(FM & _ & K)]; [congruence|].
    apply Rle_trans with (val mn0); auto.
  - intros a Ha. destruct RX as [(_ & K & _)|(FM & _ & K)]; [congruence|].
    apply Rle_trans with (val mx0); auto.
Qed.

(* ---------- magnitudes ---------- *)

Lemma abs_rnd_le : forall x M, F64 M -> Rabs x <= M -> Rabs (rnd x) <= M.
Proof.
  intros x M HM H. apply Rabs_le_inv in H. apply Rabs_le. split.
  - apply rnd_ge. now apply generic_format_opp. lra.
  - apply rnd_le_gen; auto. lra.
Qed.

Lemma small_ov : forall M, (Z.abs M <= 2 ^ 53)%Z -> IZR M < bpow radix2 1024.
Proof.
  intros. apply Rle_lt_trans with (IZR (2 ^ 53)). apply IZR_le; lia.
  change (IZR (2 ^ 53)) with (bpow radix2 53). apply bpow_lt; lia.
Qed.

Lemma fadd_mag : forall x y M, fin x -> fin y -> (0 <= M <= 2 ^ 53)%Z -> Rabs (val x) + Rabs (val y) <= IZR M ->
  fin (fadd x y) /\ Rabs (val (fadd x y)) <= IZR M /\ val (fadd x y) = rnd (val x + val y).
Proof.
  intros x y M Hx Hy HM H.
  assert (A : Rabs (rnd (val x + val y)) <= IZR M).
  { apply abs_rnd_le. apply F64_IZR; lia. pose proof (Rabs_triang (val x) (val y)). lra. }
  destruct (fadd_correct x y Hx Hy) as [V F].
  - apply Rle_lt_trans with (1 := A). apply small_ov; lia.
  - repeat split; auto. now rewrite V.
Qed.

Lemma fsub_mag : forall x y M, fin x -> fin y -> (0 <= M <= 2 ^ 53)%Z -> Rabs (val x) + Rabs (val y) <= IZR M ->
  fin (fsub x y) /\ Rabs (val (fsub x y)) <= IZR M /\ val (fsub x y) = rnd (val x - val y).
Proof.
  intros x y M Hx Hy HM H.
  assert (A : Rabs (rnd (val x - val y)) <= IZR M).
  { apply abs_rnd_le. apply F64_IZR; lia. unfold Rminus. pose proof (Rabs_triang (val x) (- val y)).
    rewrite Rabs_Ropp in H0. lra. }
  destruct (fsub_correct x y Hx Hy) as [V F].
  - apply Rle_lt_trans with (1 := A). apply small_ov; lia.
  - repeat split; auto. now rewrite V.
Qed.

Lemma fmul_mag : forall x y M, fin x -> fin y -> (0 <= M <= 2 ^ 53)%Z -> Rabs (val x) * Rabs (val y) <= IZR M ->
  fin (fmul x y) /\ Rabs (val (fmul x y)) <= IZR M /\ val (fmul x y) = rnd (val x * val y).
Proof.
  intros x y M Hx Hy HM H.
  assert (A : Rabs (rnd (val x * val y)) <= IZR M).
  { apply abs_rnd_le. apply F64_IZR; lia. now rewrite Rabs_mult. }
  destruct (fmul_correct x y Hx Hy) as [V F].
  - apply Rle_lt_trans with (1 := A). apply small_ov; lia.
  - repeat split; auto. now rewrite V.
Qed.

(* every keyword of the node is a number of moderate size *)
Definition numSmall (n : schemaNode) : Prop :=
  obound (IZR (2 ^ 50)) (sMinimum n) /\ obound (IZR (2 ^ 50)) (sMaximum n) /\
  obound (IZR (2 ^ 50)) (sExclusiveMinimum n) /\ obound (IZR (2 ^ 50)) (sExclusiveMaximum n) /\
  obound (IZR (2 ^ 40)) (sMultipleOf n).

Lemma obound_ofin : forall B o, obound B o -> ofin o.
Proof. intros B [x|]; simpl; tauto. Qed.

Lemma numSmall_fin : forall n, numSmall n -> numFinite n.
Proof. intros n (A & B & C & D & E). repeat split; eapply obound_ofin; eauto. Qed.

Definition mag_ok (M : Z) (x : f64) : Prop := fin x /\ Rabs (val x) <= IZR M.

Lemma excl_mag : forall i e, fin e -> Rabs (val e) <= IZR (2 ^ 50) ->
  mag_ok (2 ^ 50 + 1) (fadd e (excl_off i)) /\ mag_ok (2 ^ 50 + 1) (fadd e (fneg (excl_off i))).
Proof.
  intros i e F H. destruct (excl_off_val i) as [Fo Vo].
  assert (Fn : fin (fneg (excl_off i))). { unfold fin, fneg. now rewrite is_finite_Bopp. }
  assert (Vn : val (fneg (excl_off i)) = - val (excl_off i)). { apply B2R_Bopp. }
  assert (P : IZR (2 ^ 50 + 1) = IZR (2 ^ 50) + 1) by apply plus_IZR.
  split.
  - destruct (fadd_mag e (excl_off i) (2 ^ 50 + 1)) as (A & B & _); auto. lia.
    rewrite P, (Rabs_pos_eq (val (excl_off i))) by lra. lra. split; auto.
  - destruct (fadd_mag e (fneg (excl_off i)) (2 ^ 50 + 1)) as (A & B & _); auto. lia.
    rewrite P, Vn, Rabs_Ropp, (Rabs_pos_eq (val (excl_off i))) by lra. lra. split; auto.
Qed.

Lemma mag_weaken : forall M N x, (M <= N)%Z -> mag_ok M x -> mag_ok N x.
Proof. intros M N x H [A B]. split; auto. apply Rle_trans with (1 := B). now apply IZR_le. Qed.

Lemma rawMin_mag : forall mn xmn i, obound (IZR (2 ^ 50)) mn -> obound (IZR (2 ^ 50)) xmn ->
  rawMin mn xmn (excl_off i) = fninf \/ mag_ok (2 ^ 50 + 1) (rawMin mn xmn (excl_off i)).
Proof.
  intros [a|] [e|] i H1 H2; simpl in H1, H2; unfold rawMin; cbn [maxFloatPtr addIfNotNil get_or].
  - right. destruct (fltb _ _); cbn [get_or]. apply excl_mag; tauto. apply mag_weaken with (2 ^ 50)%Z. lia. exact H1.
  - right. apply mag_weaken with (2 ^ 50)%Z. lia. exact H1.
  - right. apply excl_mag; tauto.
  - auto.
Qed.

Lemma rawMax_mag : forall mx xmx i, obound (IZR (2 ^ 50)) mx -> obound (IZR (2 ^ 50)) xmx ->
  rawMax mx xmx (excl_off i) = finf \/ mag_ok (2 ^ 50 + 1) (rawMax mx xmx (excl_off i)).
Proof.
  intros [a|] [e|] i H1 H2; simpl in H1, H2; unfold rawMax; cbn [minFloatPtr addIfNotNil get_or].
  - right. destruct (fltb _ _); cbn [get_or]. apply excl_mag; tauto. apply mag_weaken with (2 ^ 50)%Z. lia. exact H1.
  - right. apply mag_weaken with (2 ^ 50)%Z. lia. exact H1.
  - right. apply excl_mag; tauto.
  - auto.
Qed.

Lemma offset_mag : forall m, obound (IZR (2 ^ 40)) m ->
  mag_ok (2 ^ 47) (getFloat (fmul (get_or m fzero) (fofZ 100)) (fofZ defaultOffset)).
Proof.
  intros m H. unfold getFloat.
  destruct (fofZ_exact 100) as [V1 F1]. lia.
  destruct (fofZ_exact defaultOffset) as [V2 F2]. unfold defaultOffset; lia.
  destruct (feqb _ _).
  - split; auto. rewrite V2. unfold defaultOffset. rewrite Rabs_pos_eq by lra. apply IZR_le; lia.
  - destruct (fmul_mag (get_or m fzero) (fofZ 100) (2 ^ 47)) as (A & B & _); auto.
    + destruct m; simpl in *; [tauto|reflexivity].
    + lia.
    + rewrite V1, (Rabs_pos_eq 100) by lra.
      assert (Rabs (val (get_or m fzero)) <= IZR (2 ^ 40)).
      { destruct m; simpl in *; [tauto|]. rewrite Rabs_R0. apply IZR_le; lia. }
      apply Rle_trans with (IZR (2 ^ 40) * 100). apply Rmult_le_compat_r; lra.
      rewrite <- mult_IZR. apply IZR_le; lia.
    + split; auto.
Qed.

Lemma mag_round : forall md M x, (0 <= M)%Z -> mag_ok M x -> mag_ok M (Bnearbyint md x).
Proof.
  intros md M x HM [A B]. destruct (nearby_val md x A) as [V F]. split; auto. rewrite V.
  apply Rabs_le_inv in B. rewrite <- abs_IZR. apply IZR_le. apply Z.abs_le.
  assert (Va : Valid_rnd (round_mode md)) by apply valid_rnd_round_mode.
  split.
  - rewrite <- (Zrnd_IZR (round_mode md) (- M)). apply Zrnd_le; auto. rewrite opp_IZR. lra.
  - rewrite <- (Zrnd_IZR (round_mode md) M). apply Zrnd_le; auto. lra.
Qed.

Lemma upper_big : IZR (2 ^ 53) < val upperBound.
Proof.
  assert (K : fltb (fofZ (2 ^ 53)) upperBound = true) by (vm_compute; reflexivity).
  destruct (fofZ_exact (2 ^ 53)) as [V F]. lia.
  apply fltb_lt in K; auto. lra.
Qed.

Lemma clamp_mag : forall M x, (0 <= M <= 2 ^ 53)%Z -> mag_ok M x -> clampMin x = x /\ clampMax x = x.
Proof.
  intros M x HM [A B]. pose proof upper_big. destruct lower_val as [FL VL]. destruct upper_fin as [FU _].
  assert (IZR M <= IZR (2 ^ 53)) by (apply IZR_le; lia). apply Rabs_le_inv in B.
  split.
  - unfold clampMin. replace (fltb x lowerBound) with false; auto. symmetry. apply fltb_ge; auto. lra.
  - unfold clampMax. replace (fltb upperBound x) with false; auto. symmetry. apply fltb_ge; auto. lra.
Qed.

Lemma check_same : forall i a b mo mn mx, checkMultipleOf i a b mo = Good (mn, mx) -> mn = a /\ mx = b.
Proof.
  intros i a b mo mn mx H. unfold checkMultipleOf in H. destruct mo; [|injection H as <- <-; split; reflexivity].
  destruct (fltb f fzero); [discriminate H|]. destruct (_ && fltb f _); [discriminate H|].
  destruct (i && _); [discriminate H|]. destruct (_ =? 0)%Z; [discriminate H|].
  injection H as <- <-; split; reflexivity.
Qed.

Lemma resolve_mag : forall n i mn mx, numSmall n -> resolveMinMax n i = Good (mn, mx) ->
  mag_ok (2 ^ 51) mn /\ mag_ok (2 ^ 51) mx.
Proof.
  intros n i mn mx (N1 & N2 & N3 & N4 & N5) H. unfold resolveMinMax in H. fold (excl_off i) in H.
  pose proof (rawMin_mag (sMinimum n) (sExclusiveMinimum n) i N1 N3) as RM.
  pose proof (rawMax_mag (sMaximum n) (sExclusiveMaximum n) i N2 N4) as RX.
  pose proof (offset_mag _ N5) as OM.
  set (mn0 := rawMin (sMinimum n) (sExclusiveMinimum n) (excl_off i)) in *.
  set (mx0 := rawMax (sMaximum n) (sExclusiveMaximum n) (excl_off i)) in *.
  set (off := getFloat (fmul (get_or (sMultipleOf n) fzero) (fofZ 100)) (fofZ defaultOffset)) in *.
  destruct (defaultRange mn0 mx0 off) as [mn1 mx1] eqn:DR.
  assert (P : forall x, mag_ok (2 ^ 50 + 1) x -> mag_ok (2 ^ 51) x) by (intros; eapply mag_weaken; [|eauto]; lia).
  assert (Sum : forall x, mag_ok (2 ^ 50 + 1) x -> mag_ok (2 ^ 51) (fadd x off) /\ mag_ok (2 ^ 51) (fsub x off)).
  { intros x [A B]. destruct OM as [C D].
    assert (Rabs (val x) + Rabs (val off) <= IZR (2 ^ 51)).
    { apply Rle_trans with (IZR (2 ^ 50 + 1) + IZR (2 ^ 47)). lra. rewrite <- plus_IZR. apply IZR_le; lia. }
    split.
    - destruct (fadd_mag x off (2 ^ 51)) as (E & G & _); auto. lia. split; auto.
    - destruct (fsub_mag x off (2 ^ 51)) as (E & G & _); auto. lia. split; auto. }
  assert (D : mag_ok (2 ^ 51) mn1 /\ mag_ok (2 ^ 51) mx1).
  { unfold defaultRange in DR.
    destruct RM as [EM|FM], RX as [EX|FX].
    - rewrite EM, EX in *. simpl in DR. injection DR as <- <-. split.
      + split. reflexivity. rewrite val_fzero, Rabs_R0. apply IZR_le; lia.
      + eapply mag_weaken; [|eauto]. lia.
    - rewrite EM in *. simpl in DR. replace (is_inf_pos mx0) with false in DR by (destruct FX; destruct mx0 as [|[]| |]; try reflexivity; discriminate).
      injection DR as <- <-. split; auto. now apply Sum.
    - rewrite EX in *. replace (is_inf_neg mn0) with false in DR by (destruct FM; destruct mn0 as [|[]| |]; try reflexivity; discriminate).
      simpl in DR. injection DR as <- <-. split; auto. now apply Sum.
    - replace (is_inf_neg mn0) with false in DR by (destruct FM; destruct mn0 as [|[]| |]; try reflexivity; discriminate).
      replace (is_inf_pos mx0) with false in DR by (destruct FX; destruct mx0 as [|[]| |]; try reflexivity; discriminate).
      simpl in DR. injection DR as <- <-. split; auto. }
  destruct D as [D1 D2].
  assert (HM : (0 <= 2 ^ 51 <= 2 ^ 53)%Z) by lia.
  destruct (clamp_mag _ _ HM D1) as [C1 _]. destruct (clamp_mag _ _ HM D2) as [_ C2]. rewrite C1, C2 in H.
  destruct (i && _); [discriminate H|]. destruct (fltb _ _); [discriminate H|].
  assert (HC : mn = (if i then fceil mn1 else mn1) /\ mx = (if i then ffloor mx1 else mx1)).
  { apply check_same in H. exact H. }
  destruct HC as [-> ->]. destruct i; split; auto; apply mag_round; auto; lia.
Qed.

(* adding an offset larger than half a unit in the last place moves to a strictly larger float *)
Lemma rnd_gt : forall e o k, F64 e -> Rabs e < bpow radix2 k -> (-1021 <= k)%Z -> bpow radix2 (k - 54) < o ->
  e < rnd (e + o).
Proof.
  intros e o k Fe He Hk Ho.
  assert (U : ulp radix2 fexp64 e <= bpow radix2 (k - 53)).
  { destruct (Req_dec e 0) as [->|Hz].
    - change (ulp radix2 fexp64 0) with (ulp radix2 (FLT_exp (-1074) 53) 0). rewrite ulp_FLT_0 by reflexivity. apply bpow_le; lia.
    - rewrite ulp_neq_0 by auto. apply bpow_le. unfold cexp. rewrite fexp64_FLT. unfold FLT_exp.
      assert (mag radix2 e <= k)%Z by (apply mag_le_bpow; auto). lia. }
  assert (UP : 0 < ulp radix2 fexp64 e).
  { destruct (Req_dec e 0) as [->|Hz].
    - change (ulp radix2 fexp64 0) with (ulp radix2 (FLT_exp (-1074) 53) 0). rewrite ulp_FLT_0 by reflexivity. apply bpow_gt_0.
    - rewrite ulp_neq_0 by auto. apply bpow_gt_0. }
  assert (S1 : succ radix2 fexp64 e <= e + ulp radix2 fexp64 e).
  { destruct (Rle_or_lt 0 e).
    - rewrite succ_eq_pos by auto. lra.
    - unfold succ. rewrite Rle_bool_false by lra.
      pose proof (pred_ge_gt radix2 fexp64) as _.
      assert (- e - ulp radix2 fexp64 (- e) <= pred_pos radix2 fexp64 (- e)).
      { unfold pred_pos. destruct (Req_bool_spec (- e) (bpow radix2 (mag radix2 (- e) - 1))) as [E|E].
        - apply Rplus_le_compat_l. apply Ropp_le_contravar. rewrite ulp_neq_0 by lra.
          apply bpow_le. unfold cexp. rewrite !fexp64_FLT. unfold FLT_exp. lia.
        - lra. }
      rewrite ulp_opp in H0. lra. }
  assert (S2 : e < succ radix2 fexp64 e).
  { destruct (Rle_or_lt 0 e).
    - rewrite succ_eq_pos by auto. lra.
    - apply succ_gt_id. lra. }
  apply Rlt_le_trans with (1 := S2).
  apply round_N_ge_midp; auto with typeclass_instances.
  - apply generic_format_succ; auto with typeclass_instances.
  - rewrite pred_succ by auto with typeclass_instances.
    assert (B : bpow radix2 (k - 53) = 2 * bpow radix2 (k - 54)).
    { replace (k - 53)%Z with (1 + (k - 54))%Z by lia. rewrite bpow_plus. reflexivity. }
    lra.
Qed.

Lemma rnd_lt : forall e o k, F64 e -> Rabs e < bpow radix2 k -> (-1021 <= k)%Z -> bpow radix2 (k - 54) < o ->
  rnd (e - o) < e.
Proof.
  intros e o k Fe He Hk Ho.
  replace (e - o) with (- (- e + o)) by ring.
  rewrite round_NE_opp.
  assert (- e < rnd (- e + o)).
  { apply rnd_gt with k; auto. now apply generic_format_opp. now rewrite Rabs_Ropp. }
  lra.
Qed.
