(* What is left of a schema when a negated schema is applied to it: the numbers that are no multiples,
   the values of an enum, several negations in a row, and negations inside sub-schemas. *)
From Coq Require Import ZArith Reals List String Bool Lia Lra.
From Flocq Require Import Core BinarySingleNaN.
From Verif Require Import Base Float64 Json Schema Util Number Gen GenInv Codec CodecFacts PState PFacts RefPath Merge NotMerge Parse ParseKeep ParseShape FloatFacts NumberFacts HcfFacts NumberSafe SpecNumber SpecSchema SpecParse.
From Verif Require Import MergeFacts MergeProps MergeFlat JEq SpecMerge MergeValid SpecRun ValueProps NotProps ConstrProps NotValues SpecNegate NotKeep NotSound.
Import ListNotations.
Open Scope string_scope.
Open Scope Z_scope.

(* ------------------------------------------------------------------ the numbers tried *)
Lemma loop_in : forall q mx mo v f k u, In v (validMultiplesLoop f k u mx mo q) -> fleb v mx = true /\ feqb (fmod v q) fzero = false.
Proof.
  intros q mx mo v. induction f as [|f IH]; intros k u H; [destruct H|]. cbn [validMultiplesLoop] in H.
  destruct (fleb u mx) eqn:L; [|destruct H]. destruct (feqb (fmod u q) fzero) eqn:Z; [eapply IH; exact H|].
  destruct H as [<-|H]; [split; [exact L|exact Z]|]. destruct (S k <? 200)%nat; [eapply IH; exact H|destruct H].
Qed.

Lemma multiples_def : forall mn mx mo q, exists f u, validMultiples mn mx mo q = validMultiplesLoop f 0 u mx mo q.
Proof. intros. unfold validMultiples. cbv zeta. exists maxSteps. eexists. reflexivity. Qed.
Lemma multiples_in : forall mn mx mo q v, In v (validMultiples mn mx mo q) -> fleb v mx = true /\ feqb (fmod v q) fzero = false.
Proof. intros mn mx mo q v H. destruct (multiples_def mn mx mo q) as (f & u & E). rewrite E in H. exact (loop_in q mx mo v f O u H). Qed.
Opaque validMultiples.

Lemma notMultiple : forall v q, is_finite v = true -> is_finite q = true -> B2R q <> 0%R -> feqb (fmod v q) fzero = false ->
  ~ exists k : Z, B2R v = (IZR k * B2R q)%R.
Proof.
  intros v q Fv Fq Nq H M. destruct (Req_dec (B2R v) 0) as [E|E].
  - destruct v as [s|s| |s m e B]; try discriminate Fv.
    + destruct q as [s'|s'| |s' m' e' B']; try discriminate Fq; [apply Nq; reflexivity|]. destruct s; cbv in H; discriminate H.
    + apply (f_equal (Rabs)) in E. rewrite Rabs_R0 in E. apply Rabs_eq_R0 in E.
      apply (eq_0_F2R radix2) in E. cbn in E. destruct s; discriminate E.
  - rewrite (fmod_exact v q Fv Fq E Nq M) in H. discriminate H.
Qed.

(* a negated multipleOf leaves a list of numbers *)
Lemma multiples_run : forall m c n x q s m' c' s', sMultipleOf x = Some q -> is_finite q = true -> B2R q <> 0%R ->
  notApplyNumber (m, c) n x s = Ok ((m', c'), s') -> quiet s s' ->
  exists l, sEnum m' = Some (map JFloat l) /\ forall v, In v l -> feqb (fmod v q) fzero = false.
Proof.
  intros m c n x q s m' c' s' EX F N H Q. unfold notApplyNumber in H.
  destruct (boundsFloat _ _ _ _ _ _ _ _ _) as [[[[mn mx] amn] amx] w].
  apply pbind_ok in H. destruct H as (u & s1 & H1 & H). rewrite EX in H. cbn [get_or] in H. rewrite (feqb_zero q F N) in H.
  cbn [andb] in H. rewrite (feqb_zero q F N) in H. cbn [negb] in H. rewrite !andb_true_r, andb_false_r in H. cbn [andb] in H.
  set (mo := if _ && _ && _ then _ else _) in H. clearbody mo.
  assert (W : (run* warnField "not/multipleOf" in pret (set_sMinimum mn (set_sMaximum mx m), c)) s1 = Ok ((m', c'), s') -> False).
  { intros X. apply pbind_ok in X. destruct X as (u' & s2 & X & Y). apply pret_ok in Y. destruct Y as [_ ->].
    eapply quiet_warn; [exact X|]. eapply (quiet_mid demoPE); [| |exact Q].
    - eapply st_warnIf. exact H1.
    - eapply st_warnField. exact X. }
  assert (K : forall (b : bool) l y, (forall v, In v l -> feqb (fmod v q) fzero = false) ->
     (if b then (run* warnField "not/multipleOf" in pret (set_sMinimum mn (set_sMaximum mx m), c)) else pret (set_sEnum (Some (map JFloat l)) y, c)) s1 = Ok ((m', c'), s') ->
     exists l, sEnum m' = Some (map JFloat l) /\ forall v, In v l -> feqb (fmod v q) fzero = false).
  { intros [|] l y HL X; [destruct (W X)|]. apply pret_ok in X. destruct X as [X _]. apply pair_equal_spec in X. destruct X as [-> _].
    exists l. split; [reflexivity|exact HL]. }
  assert (V : forall (b : bool) a1 b1 m1 a2 b2 m2 v, In v (if b then validMultiples a1 b1 m1 q else validMultiples a2 b2 m2 q) -> feqb (fmod v q) fzero = false).
  { intros [|] a1 b1 m1 a2 b2 m2 v X; apply multiples_in in X; apply X. }
  destruct (negb (feqb mo fzero)).
  - destruct (feqb mo q); [destruct (W H)|]. cbn [andb] in H. destruct (feqb (fmod mo q) fzero); [destruct (W H)|]. 
    destruct (fleb q infinitesimal); [destruct (W H)|]. cbv zeta in H. apply K in H; [exact H|]. intros v X. apply V in X. exact X.
  - cbn [andb] in H. destruct (fleb q infinitesimal); [destruct (W H)|]. cbv zeta in H. apply K in H; [exact H|]. intros v X. apply V in X. exact X.
Qed.

(* from an integer upwards in steps of one *)
Lemma loop_int : forall q mx v f k u i, fin u -> val u = IZR i -> (Z.abs i + Z.of_nat f <= 2 ^ 51)%Z ->
  In v (validMultiplesLoop f k u mx (fofZ 1) q) -> exists j, (i <= j)%Z /\ (Z.abs j <= 2 ^ 51)%Z /\ fin v /\ val v = IZR j.
Proof.
  intros q mx v. induction f as [|f IH]; intros k u i F V L H; [destruct H|]. cbn [validMultiplesLoop] in H.
  rewrite Nat2Z.inj_succ in L.
  destruct (fadd1 u i F V ltac:(lia)) as [F1 V1].
  assert (N : forall k', In v (validMultiplesLoop f k' (fadd u (fofZ 1)) mx (fofZ 1) q) -> exists j, (i <= j)%Z /\ (Z.abs j <= 2 ^ 51)%Z /\ fin v /\ val v = IZR j).
  { intros k' X. destruct (IH k' _ (i + 1)%Z F1 V1 ltac:(lia) X) as (j & J & R). exists j. split; [lia|exact R]. }
  destruct (fleb u mx); [|destruct H]. destruct (feqb (fmod u q) fzero); [exact (N _ H)|].
  destruct H as [<-|H]; [exists i; split; [lia|]; split; [lia|split; [exact F|exact V]]|]. destruct (S k <? 200)%nat; [exact (N _ H)|destruct H].
Qed.

Lemma small_fin : forall z, (Z.abs z <= 2 ^ 53)%Z -> (Rabs (rnd (IZR z)) < bpow radix2 1024)%R.
Proof.
  intros z H. rewrite rnd_id by (apply F64_IZR; exact H). rewrite <- abs_IZR. apply Rle_lt_trans with (IZR (2 ^ 53)). apply IZR_le. exact H.
  change (IZR (2 ^ 53)) with (bpow radix2 53). apply bpow_lt. lia.
Qed.
Lemma one_infinitesimal : fltb infinitesimal (fofZ 1) = true. Proof. vm_compute. reflexivity. Qed.
Transparent validMultiples.
Lemma multiples_start : forall mn mx mo q, validMultiples mn mx mo q =
  validMultiplesLoop maxSteps 0 (if fltb infinitesimal mo then
      let aligned := fmul (fceil (fdiv mn mo)) mo in if is_inf aligned || is_nanb aligned then mn else aligned else mn) mx mo q.
Proof. reflexivity. Qed.
Lemma maxSteps_Z : Z.of_nat maxSteps = 10000. Proof. unfold maxSteps. apply Z2Nat.id. lia. Qed.
Opaque maxSteps.
Lemma multiples_int : forall mn mx q i v, fin mn -> val mn = IZR i -> (Z.abs i <= 2 ^ 50 + 1)%Z -> In v (validMultiples mn mx (fofZ 1) q) ->
  exists j, (i <= j)%Z /\ fin v /\ val v = IZR j /\ fleb v mx = true /\ feqb (fmod v q) fzero = false.
Proof.
  intros mn mx q i v F V L H.
  assert (S : exists u, fin u /\ val u = IZR i /\ In v (validMultiplesLoop maxSteps 0 u mx (fofZ 1) q)).
  { destruct (fofZ_exact 1 ltac:(lia)) as [V1 F1].
    assert (D : rnd (val mn / val (fofZ 1))%R = IZR i). { rewrite V, V1. unfold Rdiv. rewrite Rinv_1, Rmult_1_r. apply rnd_id. apply F64_IZR. lia. }
    destruct (fdiv_correct mn (fofZ 1) F) as [A B]; [rewrite V1; apply R1_neq_R0|rewrite D; rewrite <- (rnd_id (IZR i)) by (apply F64_IZR; lia); apply small_fin; lia|].
    rewrite D in A. destruct (fceil_val _ B) as [C C']. rewrite A, Zceil_IZR in C.
    assert (M : rnd (val (fceil (fdiv mn (fofZ 1))) * val (fofZ 1))%R = IZR i). { rewrite C, V1, Rmult_1_r. apply rnd_id. apply F64_IZR. lia. }
    destruct (fmul_correct (fceil (fdiv mn (fofZ 1))) (fofZ 1) C' F1) as [G G']; [rewrite M; rewrite <- (rnd_id (IZR i)) by (apply F64_IZR; lia); apply small_fin; lia|].
    rewrite M in G. exists (fmul (fceil (fdiv mn (fofZ 1))) (fofZ 1)). split; [exact G'|]. split; [exact G|].
    rewrite multiples_start in H. cbv zeta in H. rewrite one_infinitesimal in H. unfold fin in G'.
    remember (fmul (fceil (fdiv mn (fofZ 1))) (fofZ 1)) as u eqn:EU.
    assert (Z : is_inf u || is_nanb u = false) by (clear -G'; destruct u; try discriminate G'; reflexivity). rewrite Z in H. exact H. }
  destruct S as (u & Fu & Vu & Iu).
  destruct (loop_in q mx (fofZ 1) v maxSteps 0 u Iu) as [X1 X2].
  destruct (loop_int q mx v maxSteps 0 u i Fu Vu) as (j & J1 & J2 & J3 & J4); [|exact Iu|].
  - rewrite maxSteps_Z. lia.
  - exists j. split; [exact J1|]. split; [exact J3|]. split; [exact J4|]. split; [exact X1|exact X2].
Qed.
Opaque validMultiples.

Lemma isNoType : typeContains None "integer" = false. Proof. reflexivity. Qed.
Lemma zero_zero : feqb fzero fzero = true. Proof. vm_compute. reflexivity. Qed.
Lemma one_zero : feqb (fofZ 1) fzero = false. Proof. vm_compute. reflexivity. Qed.

(* the integers left, when only multiples are refused and the schema has a lower bound *)
Lemma integers_run : forall m c n x q s m' c' s', sMultipleOf x = Some q -> is_finite q = true -> B2R q <> 0%R ->
  typeContains (sType m) "integer" = true -> sMultipleOf n = None -> sType x = None ->
  sMinimum x = None -> sMaximum x = None -> sExclusiveMinimum x = None -> sExclusiveMaximum x = None ->
  (sMinimum n <> None \/ sExclusiveMinimum n <> None) ->
  intB (sMinimum n) -> intB (sExclusiveMinimum n) -> intB (sMaximum n) -> intB (sExclusiveMaximum n) ->
  notApplyNumber (m, c) n x s = Ok ((m', c'), s') -> quiet s s' ->
  exists l, sEnum m' = Some (map JFloat l) /\
    forall v, In v l -> exists j, fin v /\ val v = IZR j /\ okBounds n (IZR j) /\ feqb (fmod v q) fzero = false.
Proof.
  intros m c n x q s m' c' s' EX F N TI MN TX X1 X2 X3 X4 LO I1 I2 I3 I4 H Q.
  assert (I0 : intB None) by (intros a D; discriminate D).
  pose proof (fun a b am ax z => boundsFloat_int n x a b am ax z I1 I2 I3 I4) as BI.
  rewrite X1, X2, X3, X4 in BI.
  unfold notApplyNumber in H. rewrite TI, TX, isNoType, MN, EX, X1, X2, X3, X4 in H. cbn [get_or] in H. rewrite (feqb_zero q F N), zero_zero in H.
  cbn [andb negb] in H. rewrite (feqb_zero q F N), one_zero in H. cbn [negb andb] in H.
  set (lo := maxFloatPtr (sMinimum n) (addIfNotNil (sExclusiveMinimum n) (fofZ 1))).
  set (hi := minFloatPtr (sMaximum n) (addIfNotNil (sExclusiveMaximum n) (fneg (fofZ 1)))).
  assert (B : boundsFloat (sMinimum n) (sExclusiveMinimum n) (sMaximum n) (sExclusiveMaximum n) None None None None (fofZ 1) = (lo, hi, None, None, false)) by reflexivity.
  rewrite B in H, BI. apply pbind_ok in H. destruct H as (u & s1 & H1 & H).
  assert (E1 : s1 = s). { unfold warnIf in H1. apply pret_ok in H1. apply H1. } clear H1. subst s1.
  assert (W : (run* warnField "not/multipleOf" in pret (set_sMinimum lo (set_sMaximum hi m), c)) s = Ok ((m', c'), s') -> False).
  { intros X. apply pbind_ok in X. destruct X as (u' & s2 & X & Y). apply pret_ok in Y. destruct Y as [_ ->].
    eapply quiet_warn; [exact X|exact Q]. }
  destruct (feqb (fofZ 1) q); [destruct (W H)|]. destruct (feqb (fmod (fofZ 1) q) fzero); [destruct (W H)|].
  destruct (fleb q infinitesimal); [destruct (W H)|]. cbv zeta in H. cbn [is_some] in H. rewrite andb_false_r in H. cbn [orb andb] in H.
  apply pret_ok in H. destruct H as [H _]. apply pair_equal_spec in H. destruct H as [-> _].
  eexists. split; [reflexivity|]. intros v Iv.
  assert (LI : exists w i, lo = Some w /\ fin w /\ val w = IZR i /\ (Z.abs i <= 2 ^ 50 + 1)%Z).
  { destruct lo as [w|] eqn:EL.
    - unfold lo in EL. apply maxPtr_in in EL. destruct EL as [EL|EL].
      + destruct (I1 w EL) as (Fw & k & Vk & Lk). exists w, k. split; [reflexivity|]. split; [exact Fw|]. split; [exact Vk|lia].
      + destruct (sExclusiveMinimum n) as [e|]; [|discriminate EL]. cbn in EL. destruct (I2 e eq_refl) as (Fe & k & Vk & Lk).
        destruct (fadd1 e k Fe Vk ltac:(lia)) as [A A']. injection EL as <-. exists (fadd e (fofZ 1)), (k + 1)%Z.
        split; [reflexivity|]. split; [exact A|]. split; [exact A'|lia].
    - exfalso. unfold lo in EL. destruct (sMinimum n) as [a|], (sExclusiveMinimum n) as [b|]; cbn in EL; try discriminate EL.
      + destruct (fltb _ _) in EL; discriminate EL.
      + destruct LO as [X|X]; apply X; reflexivity. }
  destruct LI as (w & i & EL & Fw & Vw & Li). rewrite EL in Iv. cbn [get_or] in Iv.
  destruct (multiples_int w (get_or hi upperBound) q i v Fw Vw Li Iv) as (j & J & Fv & Vv & LE & NM).
  exists j. split; [exact Fv|]. split; [exact Vv|]. split; [|exact NM].
  eapply BI; [exact I0|exact I0|exact I0|exact I0|rewrite EL; reflexivity| |].
  - intros a A. injection A as <-. rewrite Vw. apply IZR_le. exact J.
  - intros b Hb. destruct hi as [h|] eqn:EH; [|discriminate Hb]. injection Hb as <-. cbn [get_or] in LE.
    assert (Fh : fin h). { unfold hi in EH. apply minPtr_in in EH. destruct EH as [EH|EH].
      - apply (I3 h EH).
      - destruct (sExclusiveMaximum n) as [e|]; [|discriminate EH]. cbn in EH. destruct (I4 e eq_refl) as (Fe & k & Vk & Lk).
        destruct (fsub1 e k Fe Vk ltac:(lia)) as [_ [A A']]. injection EH as <-. exact A. }
    apply (proj1 (fleb_le _ _ Fv Fh)) in LE. rewrite Vv in LE. exact LE.
Qed.

(* ------------------------------------------------------------------ the whole step *)
Lemma notMerge_left : forall E f n x s m c s', notMerge E f n x s = Ok ((m, c), s') -> quiet s s' -> exists f', left E (notMerge E f') n x m.
Proof.
  intros E [|f] n x s m c s' H Q; [discriminate H|]. exists f. cbn [notMerge] in H. eapply notStep_left; [|exact H|exact Q]. intros; apply st_notMerge.
Qed.

(* the enum comes from the number step when the schema itself has none *)
Lemma notMerge_number : forall E f n x s m c s', notMerge E f n x s = Ok ((m, c), s') -> quiet s s' -> sEnum n = None ->
  exists t m1 c1 s1 m2 c2 s2, resolveType n x = Some t /\ sType m1 = Some t /\ sType m = Some t /\ sEnum m1 = None /\ sMultipleOf m1 = None /\
    notApplyNumber (m1, c1) n x s1 = Ok ((m2, c2), s2) /\ quiet s1 s2 /\ sEnum m = sEnum m2.
Proof.
  intros E [|f] n x s m c s' H Q EN; [discriminate H|]. cbn [notMerge] in H.
  pose proof (notStep_left _ _ _ _ _ _ _ _ (st_notMerge E f) H Q) as L. destruct (lfType _ _ _ _ _ L) as (t0 & ET0 & EM).
  destruct (notStep_runs E (notMerge E f) (st_notMerge E f) _ _ _ _ _ _ H Q) as (m1 & m2 & m3 & m4 & m5 & m6 & S & ->).
  destruct S as (t & c1 & c2 & c3 & c4 & c5 & s1 & s2 & s3 & s4 & s5 & s6 & ET & (H1 & Q1) & (H2 & Q2) & (H3 & Q3) & (H4 & Q4) & (H5 & Q5) & (H6 & Q6) & _).
  destruct (notString_ok _ _ _ _ _ _ _ _ _ H1) as (l1 & l2 & wl & B1 & R1 & E1).
  exists t, m1, c1, s1, m2, c2, s2. split; [exact ET|]. split; [rewrite E1; reflexivity|]. split; [rewrite EM; rewrite ET in ET0; symmetry; exact ET0|].
  split; [rewrite E1; reflexivity|]. split; [rewrite E1; reflexivity|]. split; [exact H2|]. split; [exact Q2|].
  destruct (enum_run _ _ _ _ _ _ _ _ H3 Q3) as (_ & X3 & _). rewrite <- (X3 EN).
  destruct (notConst_ok E _ _ _ _ _ _ _ _ H4) as (_ & E4).
  destruct (array_run E (notMerge E f) (st_notMerge E f) _ _ _ _ _ _ _ _ H5 Q5) as (i1 & i2 & k1 & k2 & its & un & prx & une & con & B5 & B6 & I5 & U5 & P5 & C5 & E5).
  assert (N6 : sProperties m5 = None).
  { destruct (notNumber_ok E _ _ _ _ _ _ _ _ H2) as (_ & _ & e & mn & mx & mo & E2 & _). destruct (enum_run _ _ _ _ _ _ _ _ H3 Q3) as (_ & _ & E3).
    rewrite E5. cbn. rewrite E4. cbn. rewrite E3. cbn. rewrite E2. cbn. rewrite E1. reflexivity. }
  destruct (object_run E (notMerge E f) (st_notMerge E f) _ _ _ _ _ _ _ _ H6 Q6 N6) as (p1 & p2 & props & addp & B7 & PR & AD & GP & pr & E6).
  unfold keepFields. cbn. rewrite E6. cbn. rewrite E5. cbn. rewrite E4. reflexivity.
Qed.

Lemma notMerge_multiples : forall E f n x q s m c s', notMerge E f n x s = Ok ((m, c), s') -> quiet s s' -> sEnum n = None ->
  sMultipleOf x = Some q -> is_finite q = true -> B2R q <> 0%R ->
  exists l, sEnum m = Some l /\ forall w, In w l -> exists v, w = JFloat v /\ forall z, numberValue w z -> ~ okMultipleOf x z.
Proof.
  intros E f n x q s m c s' H Q EN EX F N.
  destruct (notMerge_number _ _ _ _ _ _ _ _ H Q EN) as (t & m1 & c1 & s1 & m2 & c2 & s2 & _ & _ & _ & _ & _ & H2 & Q2 & ->).
  destruct (multiples_run _ _ _ _ _ _ _ _ _ EX F N H2 Q2) as (l & -> & HL). exists (map JFloat l). split; [reflexivity|].
  intros w I. apply in_map_iff in I. destruct I as (v & <- & I). exists v. split; [reflexivity|]. intros z [Fv ->] M.
  destruct (M q EX) as (k & K). refine (notMultiple v q Fv F N (HL v I) _). exists k. exact K.
Qed.

Lemma notMerge_integers : forall E f n x q s m c s', notMerge E f n x s = Ok ((m, c), s') -> quiet s s' -> properType (sType n) -> sEnum n = None ->
  sMultipleOf x = Some q -> is_finite q = true -> B2R q <> 0%R -> In "integer" (typeNames (sType m)) -> sMultipleOf n = None -> sType x = None ->
  sMinimum x = None -> sMaximum x = None -> sExclusiveMinimum x = None -> sExclusiveMaximum x = None ->
  (sMinimum n <> None \/ sExclusiveMinimum n <> None) ->
  intB (sMinimum n) -> intB (sExclusiveMinimum n) -> intB (sMaximum n) -> intB (sExclusiveMaximum n) ->
  exists l, sEnum m = Some l /\
    forall w, In w l -> exists j, numberValue w (IZR j) /\ okBounds n (IZR j) /\ ~ okMultipleOf x (IZR j).
Proof.
  intros E f n x q s m c s' H Q PT EN EX F N TI MN TX X1 X2 X3 X4 LO I1 I2 I3 I4.
  destruct (notMerge_number _ _ _ _ _ _ _ _ H Q EN) as (t & m1 & c1 & s1 & m2 & c2 & s2 & RT & T1 & TM & _ & _ & H2 & Q2 & ->).
  destruct (resolved_proper n x t PT RT) as [PR _]. rewrite TM in TI.
  assert (TC : typeContains (sType m1) "integer" = true). { rewrite T1. apply (proj2 (contains_names t "integer" PR ltac:(discriminate))). exact TI. }
  destruct (integers_run _ _ _ _ _ _ _ _ _ EX F N TC MN TX X1 X2 X3 X4 LO I1 I2 I3 I4 H2 Q2) as (l & -> & HL). exists (map JFloat l). split; [reflexivity|].
  intros w I. apply in_map_iff in I. destruct I as (v & <- & I). destruct (HL v I) as (j & Fv & Vv & OB & NM). exists j.
  split; [split; [exact Fv|symmetry; exact Vv]|]. split; [exact OB|]. intros M.
  destruct (M q EX) as (k & K). refine (notMultiple v q Fv F N NM _). exists k. rewrite <- K. exact Vv.
Qed.

(* the values left of an enum, when they were read from JSON *)
Lemma notMerge_enum : forall E f n x s m c s' l, notMerge E f n x s = Ok ((m, c), s') -> quiet s s' -> sEnum n = Some l -> l <> [] ->
  (forall v, In v l -> exists j, decAny j = Some v) ->
  exists l', sEnum m = Some l' /\ forall v, In v l' <-> In v l /\ ~ exists w, In w (get_or (sEnum x) []) /\ marshal v = marshal w.
Proof.
  intros E f n x s m c s' l H Q EN NE TX. destruct (notMerge_left _ _ _ _ _ _ _ _ H Q) as (f' & L).
  destruct (lfEnum _ _ _ _ _ L l EN NE) as (l' & EM & HL). exists (map reread l'). split; [exact EM|].
  assert (R : forall v, In v l' -> reread v = v). { intros v I. apply HL in I. destruct (TX v (proj1 I)) as (j & J). eapply reread_text. exact J. }
  assert (M : map reread l' = l'). { clear -R. induction l' as [|a r IH]; auto. cbn. rewrite (R a), IH; auto; [intros; apply R; right; auto|left; auto]. }
  rewrite M. intros v. rewrite HL. split; intros [A B]; split; auto; intros C; apply B.
  - destruct C as (w & I & ->). apply in_map. exact I.
  - apply in_map_iff in C. destruct C as (w & EQ & I). exists w. auto.
Qed.

(* ------------------------------------------------------------------ several negations *)
Lemma boundsInt_growth : forall mn mx nmn nmx a b K, boundsInt mn mx nmn nmx = (a, b, false) -> 0 <= K ->
  (forall v, In (Some v) [mn; mx; nmn; nmx] -> v < K) -> forall v, In (Some v) [a; b] -> v < K + 2.
Proof.
  intros mn mx nmn nmx a b K H K0 B v I. cbn [In] in *.
  assert (B1 : forall v, mn = Some v -> v < K) by (intros; apply B; tauto). assert (B2 : forall v, mx = Some v -> v < K) by (intros; apply B; tauto).
  assert (B3 : forall v, nmn = Some v -> v < K) by (intros; apply B; tauto). assert (B4 : forall v, nmx = Some v -> v < K) by (intros; apply B; tauto). clear B.
  unfold boundsInt, minToNil, maxToNil, nbMinInt, nbMaxInt in H.
  destruct mn as [m1|], mx as [m2|], nmn as [n1|], nmx as [n2|]; cbn [get_or] in H;
    try specialize (B1 _ eq_refl); try specialize (B2 _ eq_refl); try specialize (B3 _ eq_refl); try specialize (B4 _ eq_refl);
    repeat match type of H with
    | context [if ?b then _ else _] => let E := fresh "E" in destruct b eqn:E
    end; injection H as <- <-; destruct I as [I|[I|[]]]; try discriminate I; injection I as <-; try lia;
    repeat match goal with E : _ && _ = true |- _ => apply andb_prop in E; destruct E | E : _ || _ = false |- _ => apply orb_false_iff in E; destruct E end; try lia.
Qed.

Section Ranges.
Variable E : penv.
(* one kind of bounds, and how one negation changes it *)
Variable lo hi : schemaNode -> option Z.
Hypothesis Hstep : forall f n x s m c s', notMerge E f n x s = Ok ((m, c), s') -> quiet s s' ->
  boundsInt (lo n) (hi n) (lo x) (hi x) = (lo m, hi m, false).

Lemma nots_range : forall f xs n c s m c' s' z K, applyNots E f n c xs s = Ok ((m, c'), s') -> quiet s s' -> 0 <= z -> 0 <= K ->
  K + 2 * Z.of_nat (List.length xs) <= 2 ^ 31 - 12 ->
  (forall v, lo n = Some v \/ hi n = Some v -> v < K) -> (forall x v, In x xs -> lo x = Some v \/ hi x = Some v -> v < K) ->
  okRange (lo m) (hi m) z -> okRange (lo n) (hi n) z /\ forall x, In x xs -> lo x <> None \/ hi x <> None -> ~ okRange (lo x) (hi x) z.
Proof.
  intros f. induction xs as [|x xs IH]; intros n c s m c' s' z K H Q Hz HK L BN BX O.
  - cbn [applyNots] in H. apply pret_ok in H. destruct H as [H _]. apply pair_equal_spec in H. destruct H as [-> _]. split; [exact O|]. intros x [].
  - cbn [applyNots] in H. cbn [List.length] in L. rewrite Nat2Z.inj_succ in L.
    apply (quiet_bind E) in H; [|apply st_notMerge|intros; apply st_applyNots|exact Q].
    destruct H as ([n1 c1] & s1 & H1 & H & Q1 & Q2). cbn [fst snd] in H. pose proof (Hstep _ _ _ _ _ _ _ H1 Q1) as B.
    assert (G : forall v, lo n1 = Some v \/ hi n1 = Some v -> v < K + 2).
    { intros v I. eapply boundsInt_growth; [exact B|exact HK| |].
      - intros w [W|[W|[W|[W|[]]]]]; [apply BN; auto|apply BN; auto|apply (BX x w); [left; auto|auto]|apply (BX x w); [left; auto|auto]].
      - cbn. tauto. }
    destruct (IH n1 _ _ _ _ _ z (K + 2) H Q2 Hz ltac:(lia) ltac:(lia) G) as [O1 OX]; [|exact O|].
    { intros y v I J. assert (v < K); [|lia]. apply (BX y v); [right; exact I|exact J]. }
    destruct (boundsInt_ok _ _ _ _ _ _ z B Hz) as [O2 O3]; [|exact O1|].
    { intros v [J|[J|J]]; [assert (v < K) by (apply BN; auto); lia|assert (v < K) by (apply BN; auto); lia|].
      assert (v < K); [apply (BX x v); [left; auto|auto]|lia]. }
    split; [exact O2|]. intros y [<-|I]; [exact O3|exact (OX y I)].
Qed.
End Ranges.

Lemma nots_ranges : forall E f xs n c s m c' s' len items contains props, applyNots E f n c xs s = Ok ((m, c'), s') -> quiet s s' ->
  0 <= len -> 0 <= items -> 0 <= contains -> 0 <= props ->
  (forall y v, y = n \/ In y xs -> In (Some v) (sizesOf y) -> v < 2 ^ 31 - 12 - 2 * Z.of_nat (List.length xs)) ->
  2 * Z.of_nat (List.length xs) <= 2 ^ 31 - 12 ->
  (okRange (sMinLength m) (sMaxLength m) len -> okRange (sMinLength n) (sMaxLength n) len /\
     forall x, In x xs -> sMinLength x <> None \/ sMaxLength x <> None -> ~ okRange (sMinLength x) (sMaxLength x) len) /\
  (okRange (sMinItems m) (sMaxItems m) items -> okRange (sMinItems n) (sMaxItems n) items /\
     forall x, In x xs -> sMinItems x <> None \/ sMaxItems x <> None -> ~ okRange (sMinItems x) (sMaxItems x) items) /\
  (okRange (sMinContains m) (sMaxContains m) contains -> okRange (sMinContains n) (sMaxContains n) contains /\
     forall x, In x xs -> sMinContains x <> None \/ sMaxContains x <> None -> ~ okRange (sMinContains x) (sMaxContains x) contains) /\
  (okRange (sMinProperties m) (sMaxProperties m) props -> okRange (sMinProperties n) (sMaxProperties n) props /\
     forall x, In x xs -> sMinProperties x <> None \/ sMaxProperties x <> None -> ~ okRange (sMinProperties x) (sMaxProperties x) props).
Proof.
  intros E f xs n c s m c' s' len items contains props H Q L1 L2 L3 L4 B HL. unfold sizesOf in B. cbn [In] in B.
  assert (ST : forall (lo hi : schemaNode -> option Z), (forall f n x m, left E (notMerge E f) n x m -> boundsInt (lo n) (hi n) (lo x) (hi x) = (lo m, hi m, false)) ->
    forall f n x s m c s', notMerge E f n x s = Ok ((m, c), s') -> quiet s s' -> boundsInt (lo n) (hi n) (lo x) (hi x) = (lo m, hi m, false)).
  { intros lo hi X f0 n0 x0 s0 m0 c0 s0' R0 Q0. destruct (notMerge_left _ _ _ _ _ _ _ _ R0 Q0) as (f' & L). exact (X _ _ _ _ L). }
  split; [|split; [|split]]; intros O.
  - eapply (nots_range E sMinLength sMaxLength) with (K := 2 ^ 31 - 12 - 2 * Z.of_nat (List.length xs)); [apply ST; intros; eapply lfLength; eauto|exact H|exact Q|exact L1| | | | |exact O].
    + lia.
    + lia.
    + intros v I. apply (B n v); [auto|]. clear -I. tauto.
    + intros x v J I. apply (B x v); [auto|]. clear -I. tauto.
  - eapply (nots_range E sMinItems sMaxItems) with (K := 2 ^ 31 - 12 - 2 * Z.of_nat (List.length xs)); [apply ST; intros; eapply lfItemCount; eauto|exact H|exact Q|exact L2| | | | |exact O].
    + lia.
    + lia.
    + intros v I. apply (B n v); [auto|]. clear -I. tauto.
    + intros x v J I. apply (B x v); [auto|]. clear -I. tauto.
  - eapply (nots_range E sMinContains sMaxContains) with (K := 2 ^ 31 - 12 - 2 * Z.of_nat (List.length xs)); [apply ST; intros; eapply lfContainCount; eauto|exact H|exact Q|exact L3| | | | |exact O].
    + lia.
    + lia.
    + intros v I. apply (B n v); [auto|]. clear -I. tauto.
    + intros x v J I. apply (B x v); [auto|]. clear -I. tauto.
  - eapply (nots_range E sMinProperties sMaxProperties) with (K := 2 ^ 31 - 12 - 2 * Z.of_nat (List.length xs)); [apply ST; intros; eapply lfPropCount; eauto|exact H|exact Q|exact L4| | | | |exact O].
    + lia.
    + lia.
    + intros v I. apply (B n v); [auto|]. clear -I. tauto.
    + intros x v J I. apply (B x v); [auto|]. clear -I. tauto.
Qed.

(* the exclusions of all negations are collected *)
Lemma nots_excludes : forall E f xs n c s m c' s', applyNots E f n c xs s = Ok ((m, c'), s') -> quiet s s' ->
  within c c' /\ forall x, In x xs -> exists n', sRequired n' = sRequired n /\ excludes n' x c'.
Proof.
  intros E f. induction xs as [|x xs IH]; intros n c s m c' s' H Q.
  - cbn [applyNots] in H. apply pret_ok in H. destruct H as [H _]. apply pair_equal_spec in H. destruct H as [_ ->]. split; [apply within_refl|]. intros x [].
  - cbn [applyNots] in H. apply (quiet_bind E) in H; [|apply st_notMerge|intros; apply st_applyNots|exact Q].
    destruct H as ([n1 c1] & s1 & H1 & H & Q1 & Q2). cbn [fst snd] in H.
    destruct (IH _ _ _ _ _ _ H Q2) as [W X]. assert (T : forall a b d, within a b -> within b d -> within a d).
    { intros a b d (A1 & A2 & A3 & A4) (B1 & B2 & B3 & B4). split; [auto|]. split; [auto|]. split; auto. }
    split; [eapply T; [apply within_left|exact W]|]. intros y [<-|I].
    + exists n. split; [reflexivity|]. eapply excludes_within; [|eapply notMerge_excludes; [exact H1|exact Q1]]. eapply T; [apply within_merge|exact W].
    + destruct (X y I) as (n' & R & EX). exists n'. split; [|exact EX]. rewrite R. destruct (notMerge_left _ _ _ _ _ _ _ _ H1 Q1) as (f' & L).
      exact (lfRequired _ _ _ _ _ L).
Qed.

Definition plainNot (x : schemaNode) : Prop := sRef x = None /\ sAllOf x = None /\ sNot x = None /\ sMergedNot x = [].
Lemma partition_plain : forall PE f l i s singles doubles s', (forall x, In x l -> plainNot x) ->
  partitionNots (merge PE f) i l s = Ok ((singles, doubles), s') -> doubles = [] /\ (forall x, In x l -> exists x1, In x1 singles /\ sameKeys x1 x /\ normal x1) /\ (l <> [] -> singles <> []).
Proof.
  intros PE f. induction l as [|x l IH]; intros i s singles doubles s' HP H; cbn [partitionNots] in H.
  - apply pret_ok in H. destruct H as [H _]. apply pair_equal_spec in H. destruct H as [-> ->]. split; [reflexivity|]. split; [intros x []|congruence].
  - destruct (HP x (or_introl eq_refl)) as (XR & XA & XN & XM).
    apply pbind_ok in H. destruct H as (u & t1 & _ & H). apply pbind_ok in H. destruct H as (x1 & t2 & T2 & H).
    assert (X1 : sameKeys x1 x) by (eapply merge_after_empty; [exact XR|exact XA|exact T2]).
    assert (O1 : normal x1) by (eapply merge_normal; [|exact T2]; intros z [<-|[<-|[]]]; auto).
    assert (N1 : sNot x1 = None).
    { pose proof (skNots _ _ X1) as K. unfold collectNots in K. rewrite XN, XM in K. cbn [app] in K. apply app_eq_nil in K. destruct K as [K _].
      destruct (sNot x1); [discriminate|reflexivity]. }
    rewrite N1 in H. apply pbind_ok in H. destruct H as (u2 & t3 & _ & H). apply pbind_ok in H. destruct H as ([a b] & t4 & T4 & H).
    apply pret_ok in H. destruct H as [H _]. apply pair_equal_spec in H. destruct H as [-> ->]. cbn [fst snd] in *.
    destruct (IH _ _ _ _ _ (fun y I => HP y (or_intror I)) T4) as (D & P & _). split; [exact D|]. split; [|discriminate].
    intros y [<-|I]; [exists x1; split; [left; reflexivity|split; [exact X1|exact O1]]|]. destruct (P y I) as (y1 & I1 & R). exists y1. split; [right; exact I1|exact R].
Qed.

Lemma nots_parts : forall PE fuel n g s s', sRef n = None -> sAllOf n = None -> sAnyOf n = None -> sOneOf n = None ->
  sConstraints n = None -> collectNots n <> [] -> (forall x, In x (collectNots n) -> plainNot x) ->
  parseNode PE fuel n s = Ok (Good g, s') -> pErrs s' = pErrs s ->
  exists g0 c, g = GConstrained g0 [CMulti c] /\
    forall x, In x (collectNots n) -> exists n1 x1, excludes n1 x1 c /\ get_or (sRequired n1) [] = get_or (sRequired n) [] /\ sameKeys x1 x /\ normal x1.
Proof.
  intros PE fuel n g s s' R A AO OO C NE XP HP QQ. apply parseNode_errs in HP; auto.
  destruct HP as (f & s1 & s2 & H & E1 & E2 & _).
  assert (Q : quiet s1 s2) by (unfold quiet; congruence). clear QQ E1 E2.
  pose proof (step_supported _ _ _ _ _ _ H) as HU.
  assert (B : is_some (sNot n) || match sMergedNot n with [] => false | _ => true end = true).
  { unfold collectNots in NE. destruct (sNot n); [reflexivity|]. cbn [is_some orb]. destruct (sMergedNot n); [elim NE; reflexivity|reflexivity]. }
  unfold stepF, schemaStep in H. rewrite HU, R, A, OO, AO, B in H.
  unfold parseNot in H.
  assert (R' : sRef (set_sNot None (set_sMergedNot [] n)) = None /\ sAllOf (set_sNot None (set_sMergedNot [] n)) = None /\
     sRequired (set_sNot None (set_sMergedNot [] n)) = sRequired n) by (split; [exact R|split; [exact A|reflexivity]]).
  revert H R'. generalize (set_sNot None (set_sMergedNot [] n)). intros n' H (R' & A' & Q').
  apply pbind_ok in H. destruct H as ([singles doubles] & s3 & H0 & H).
  assert (K0 : keeps PE s1 s3) by (eapply st_partitionNots; [apply st_merge|exact H0]).
  destruct (partition_plain _ _ _ _ _ _ _ _ XP H0) as (-> & P & NS). specialize (NS NE).
  apply pbind_ok in H. destruct H as (n0 & t5 & T5 & H). apply pret_ok in T5. destruct T5 as [-> ->].
  destruct singles as [|z singles]; [congruence|].
  apply pbind_ok in H. destruct H as (n1 & t6 & T6 & H).
  pose proof (st_merge PE _ _ _ _ _ T6) as K1.
  apply pbind_ok in H. destruct H as ([m c] & t7 & T7 & H).
  pose proof (st_applyNots PE _ _ _ _ _ _ _ T7) as K2.
  apply pbind_ok in H. destruct H as (r & t8 & T8 & H).
  pose proof (st_parseF PE _ _ _ _ _ _ T8) as K3. destruct r as [g0|w]; [|apply bad_ok in H; tauto].
  apply good_ok in H. destruct H as [-> ->].
  assert (Q7 : quiet t6 t7).
  { destruct (quiet_mid PE s1 t6 t8) as [_ Qa]; auto. eapply keeps_trans; eauto. eapply keeps_trans; eauto.
    destruct (quiet_mid PE t6 t7 t8); auto. }
  destruct (nots_excludes _ _ _ _ _ _ _ _ _ T7 Q7) as [_ EX].
  assert (M : sameKeys n1 n') by (eapply merge_alone; [exact R'|exact A'|exact T6]).
  exists g0, c. split; [reflexivity|]. intros x I. destruct (P x I) as (x1 & I1 & S1 & O1). destruct (EX x1 I1) as (n2 & R2 & X2).
  exists n2, x1. split; [exact X2|]. split; [rewrite R2, (skRequired _ _ M), Q'; reflexivity|]. split; [exact S1|exact O1].
Qed.

(* what the check of the collected exclusions refuses of one negated schema *)
Lemma nots_values : forall PE GE fuel n g s s' st v st', sRef n = None -> sAllOf n = None -> sAnyOf n = None -> sOneOf n = None ->
  sConstraints n = None -> collectNots n <> [] -> (forall x, In x (collectNots n) -> plainNot x) ->
  parseNode PE fuel n s = Ok (Good g, s') -> pErrs s' = pErrs s -> yields GE g st v st' ->
  (v = JStr multiFailure /\ emitted EvConstraintFail st st') \/ emitted EvUnchecked st st' \/
  forall x, In x (collectNots n) ->
   (forall p t, sPattern x = Some p -> v = JStr t -> eMatch GE p t = false) /\
   (forall f, sPattern x = None -> sFormat x = Some f -> eIsFormat GE f v = false) /\
   (forall w, sEnum x = None -> sConst x = Some w -> marshal v <> marshal w) /\
   (forall k m, In k (get_or (sRequired x) []) -> ~ In k (get_or (sRequired n) []) -> v = JObj m -> assoc k m = None).
Proof.
  intros PE GE fuel n g s s' st v st' R A AO OO C NE XP HP QQ HY.
  destruct (nots_parts _ _ _ _ _ _ R A AO OO C NE XP HP QQ) as (g0 & c & -> & HX).
  apply multi_values in HY. destruct HY as [HY|[_ [HY|HY]]]; [auto|auto|]. right. right. intros x I.
  destruct (HX x I) as (n1 & x1 & EX & RQ & [J1 J2 J3 J4 _ _] & O1).
  destruct (passed_values _ _ _ _ _ EX HY) as (P1 & P2 & P3 & P4 & P5). rewrite J1 in P1, P2. rewrite J2 in P2. rewrite J3 in P5. rewrite RQ in P5.
  split; [exact P1|]. split; [exact P2|]. split; [|exact P5].
  intros w X1 X2. apply P4. apply normal_const; auto. rewrite J4. unfold collectEnum. rewrite X1, X2. reflexivity.
Qed.

(* ------------------------------------------------------------------ negations inside properties *)
Lemma notSub_coll : forall E (rec : schemaNode -> schemaNode -> P nstate) sc a b s m s', (forall x y, stable E (rec x y)) ->
  notSub rec sc a b s = Ok (m, s') -> quiet s s' ->
  exists m0 c k s1 s2, rec a b s1 = Ok ((m0, c), s2) /\ quiet s1 s2 /\ sConstraints m = Some k /\ within c k /\
    forall k0, sConstraints a = Some k0 -> within k0 k.
Proof.
  intros E rec sc a b s m s' Hrec H Q. unfold notSub in H.
  apply pbind_ok in H. destruct H as (u & s1 & H1 & H). apply pbind_ok in H. destruct H as ([m0 c] & s2 & H2 & H).
  apply pbind_ok in H. destruct H as (u' & s3 & H3 & H). apply pret_ok in H. destruct H as [-> ->].
  unfold pushPath, pmod in H1. unfold popPath, pmod in H3.
  assert (E1 : pErrs s1 = pErrs s) by (injection H1 as _ <-; reflexivity).
  assert (E2 : pErrs s3 = pErrs s2) by (injection H3 as _ <-; reflexivity).
  exists m0, c, (match sConstraints a with Some k => mergeColl c k | None => c end), s1, s2.
  split; [exact H2|]. split; [unfold quiet in *; congruence|]. split; [reflexivity|]. split.
  - destruct (sConstraints a); [apply within_left|apply within_refl].
  - intros k0 ->. apply within_merge.
Qed.

Lemma property_coll : forall E f n x s m c s' k p q r, notMerge E f n x s = Ok ((m, c), s') -> quiet s s' ->
  assoc k (get_or (sProperties n) []) = Some p -> assoc k (get_or (sProperties x) []) = Some q -> assoc k (get_or (sProperties m) []) = Some r ->
  exists kc, sConstraints r = Some kc /\ excludes p q kc /\ forall k0, sConstraints p = Some k0 -> within k0 kc.
Proof.
  intros E [|f] n x s m c s' k p q r H Q AP AX AM; [discriminate H|]. cbn [notMerge] in H.
  pose proof (notStep_left _ _ _ _ _ _ _ _ (st_notMerge E f) H Q) as L.
  destruct (lfProps _ _ _ _ _ L) as (props & a & b & PR & PQ & GP).
  destruct (props_run E _ (st_notMerge E f) _ _ _ _ _ _ _ PR PQ) as (_ & _ & PA).
  destruct (PA k p) as (r0 & AR & X); [|exact AP|].
  { apply in_or_app. left. unfold keys. apply in_map_iff. exists (k, p). split; [reflexivity|]. apply Base.assoc_In. exact AP. }
  rewrite AX in X. destruct X as (sc & a1 & a2 & X & QX).
  rewrite GP, mdeletes_assoc in AM. destruct (mem_string k (refusedNames n x)); [discriminate AM|]. rewrite AR in AM. injection AM as ->.
  destruct (notSub_coll E _ _ _ _ _ _ _ (st_notMerge E f) X QX) as (m0 & c0 & kc & s1 & s2 & R1 & Q1 & C1 & W1 & W2).
  exists kc. split; [exact C1|]. split; [|exact W2]. eapply excludes_within; [exact W1|]. eapply notMerge_excludes; eauto.
Qed.

(* a schema carrying exclusions: its values pass them *)
Lemma carried_values : forall PE GE fuel n c g s s' st v st', sConstraints n = Some c -> parseNode PE fuel n s = Ok (Good g, s') ->
  pErrs s' = pErrs s -> yields GE g st v st' ->
  (v = JStr multiFailure /\ emitted EvConstraintFail st st') \/ emitted EvUnchecked st st' \/ multiPassed GE c v = true.
Proof.
  intros PE GE fuel n c g s s' st v st' EC HP Q HY. destruct fuel as [|fuel]; [discriminate HP|]. cbn [parseNode parseF] in HP. unfold nodeStep in HP.
  apply pbind_ok in HP. destruct HP as (u & t1 & _ & HP). apply pbind_ok in HP. destruct HP as (u1 & t2 & _ & HP).
  apply pbind_ok in HP. destruct HP as (r & t3 & H & HP). apply pbind_ok in HP. destruct HP as (u2 & t4 & _ & HP).
  apply pbind_ok in HP. destruct HP as (u3 & t5 & _ & HP). apply pret_ok in HP. destruct HP as [<- _].
  destruct (pxMaxDepth PE <? pDepth u + 1); [apply bad_ok in H; contradiction|].
  apply pbind_ok in H. destruct H as (u4 & t6 & _ & H). apply pbind_ok in H. destruct H as (r & t7 & _ & H).
  apply pbind_ok in H. destruct H as (u5 & t8 & _ & H). apply pbind_ok in H. destruct H as (u6 & t9 & _ & H).
  apply pbind_ok in H. destruct H as (u7 & t10 & _ & H). rewrite EC in H. apply good_ok in H. destruct H as [-> _].
  apply multi_values in HY. destruct HY as [HY|[_ [HY|HY]]]; auto.
Qed.
