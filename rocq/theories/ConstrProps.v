(* Proofs behind P_Constr.v: the values generated for schemas with oneOf, anyOf, if and not. *)
From Coq Require Import ZArith List String Ascii Bool Lia.
From Verif Require Import Base Float64 Json Schema Util Rand Options Number Gen GenFacts GenInv GenValues.
From Verif Require Import PState RefPath Merge NotMerge Parse PFacts ParseKeep SpecSchema SpecParse SpecRun ParseShape NotProps ValueProps.
Import ListNotations.
Open Scope string_scope.
Open Scope Z_scope.

Lemma fwd_emit : forall e, fwd (emit e).
Proof. intros e s v s' H. unfold emit in H. injection H as <- <-. split; [simpl; lia|]. split; [simpl; lia|]. split; [simpl; lia|]. exists [e]. reflexivity. Qed.
Lemma emitted_after : forall e a b a' b', emitted e a b -> after a' a -> after b b' -> emitted e a' b'.
Proof. intros. eapply emitted_widen; eauto. Qed.

Lemma constrained_inv : forall GE f g c s v s', genConstrained GE (generate GE f) g [c] s = Ok (v, s') ->
  exists v0 s0, generate GE f g s = Ok (v0, s0) /\ after s s0 /\
    ((v = v0 /\ emitted EvUnchecked s s' /\ after s0 s') \/
     (exists s1, after s0 s1 /\ applyConstr GE (generate GE f) g c v0 s1 = Ok (v, s'))).
Proof.
  intros GE f g c s v s' H. unfold genConstrained in H. stepM H. exists a, s0. split; auto.
  pose proof (fwd_generate _ _ _ _ _ _ H0) as A. split; auto.
  stepM H. unfold cutoff in H1. stepM H1. unfold getCx in H2. injection H2 as <- <-. apply ret_ok in H1. destruct H1 as [-> ->].
  destruct (shouldCutoff (eOpts GE) (gCx s0)).
  - left. stepM H. pose proof H1 as H1'. unfold emit in H1. injection H1 as <- <-. apply ret_ok in H. destruct H as [-> ->]. split; auto.
    assert (A2 : after s0 (mkG (gPos s0) (gGlob s0) (gCx s0) (gStack s0) (EvUnchecked :: gLog s0))).
    { eapply fwd_emit; eauto. }
    split; auto. eapply emitted_after; [apply emitted_emit|exact A|apply after_refl].
  - right. cbn [applyAll] in H. stepM H. pose proof (fwd_tick _ _ _ H1). stepM H. apply ret_ok in H. destruct H as [-> ->].
    exists s1. auto.
Qed.

(* ------------------------------------------------------------------ anyOf and oneOf *)
Lemma comb_value : forall GE gs st v st', yields GE (GComb gs) st v st' ->
  (v = JNull /\ emitted EvCutoff st st') \/ exists g, In g gs /\ madeBy GE g v st st'.
Proof.
  intros GE gs st v st' H. apply yields_step in H. destruct H as (f & H). cbn [genStep] in H.
  apply guarded_ok in H. destruct H as [(-> & E & _)|(s1 & A & H & _)]; [left; auto|right].
  apply genOneOf_ok in H. destruct H as (g & I & P). exists g. split; auto.
  eapply prod_made. eapply prod_widen; [exact P|exact A|apply after_refl].
Qed.
Lemma comb_prod : forall GE f gs s v s', prod (generate GE f) (GComb gs) v s s' ->
  (v = JNull /\ emitted EvCutoff s s') \/ exists g, In g gs /\ madeBy GE g v s s'.
Proof.
  intros GE f gs s v s' (a & b & H & A & B).
  destruct (comb_value GE gs a v b) as [[-> E]|(g & I & x & y & P & X & Y)]; [exists f; exact H| |].
  - left. split; auto. eapply emitted_widen; eauto.
  - right. exists g. split; auto. exists x, y. split; auto. split; eapply after_trans; eauto.
Qed.

Lemma anyOf_values : forall PE GE n l g st v st', sRef n = None -> sAllOf n = None -> sConstraints n = None ->
  get_or (sOneOf n) [] = [] -> sAnyOf n = Some l -> accepted PE n g -> yields GE g st v st' ->
  (v = JNull /\ emitted EvCutoff st st') \/
  exists sub g', In sub l /\ branchOf PE false n sub g' /\ madeBy GE g' v st st'.
Proof.
  intros PE GE n l g st v st' R A C O L HA HY. apply accepted_step in HA; auto. destruct HA as (f & s & s' & H).
  pose proof (step_supported _ _ _ _ _ _ H) as HU. unfold stepF, schemaStep in H. rewrite HU, R, A, L in H.
  rewrite orb_true_r in H. apply parseCombination_shape in H. rewrite O in H. destruct H as (gs & F & H).
  rewrite L in F. cbn [get_or] in F. destruct H as [->|[-> _]].
  - right. destruct (Forall2_In_r _ _ _ _ _ _ F (or_introl eq_refl)) as (sub & I & B). exists sub, g. split; auto. split; auto.
    apply yields_made; auto.
  - apply comb_value in HY. destruct HY as [HY|(g' & I & M)]; [auto|right].
    destruct (Forall2_In_r _ _ _ _ _ _ F I) as (sub & I' & B). eauto.
Qed.

Lemma oneOf_single : forall PE GE n sub g st v st', sRef n = None -> sAllOf n = None -> sConstraints n = None ->
  sOneOf n = Some [sub] -> accepted PE n g -> yields GE g st v st' -> branchOf PE true n sub g.
Proof.
  intros PE GE n sub g st v st' R A C O HA HY. apply accepted_step in HA; auto. destruct HA as (f & s & s' & H).
  pose proof (step_supported _ _ _ _ _ _ H) as HU. unfold stepF, schemaStep in H. rewrite HU, R, A, O in H.
  cbn [is_some orb] in H. apply parseCombination_shape in H. rewrite O in H. cbn [get_or] in H. destruct H as (gs & F & H).
  inversion F; subst. inversion H4; subst. destruct H as [H|[_ (a & b & r & H)]]; [|discriminate].
  injection H as ->. auto.
Qed.

(* the schemas a oneOf is checked against: every branch, merged alone, and compiled under its own name *)
Lemma filter_none : forall A (p : A -> bool) l, filter p l = [] -> forall y, In y l -> p y = false.
Proof.
  induction l; simpl; intros; [tauto|]. destruct (p a) eqn:E; [discriminate|]. destruct H0; subst; auto.
Qed.
Lemma exactlyOne_filter : forall A (p : A -> bool) l, (List.length (filter p l) =? 1)%nat = true ->
  exactlyOne (fun x => p x = true) l.
Proof.
  intros A p l. induction l as [|x l IH]; simpl; [discriminate|]. destruct (p x) eqn:E; intros H.
  - exists [], x, l. split; auto. split; auto. intros y I. cbn [app] in I. simpl in H.
    destruct (filter p l) eqn:F; [|discriminate]. rewrite (filter_none _ _ _ F _ I). congruence.
  - destruct (IH H) as (a & z & b & -> & Z & N). exists (x :: a)%list, z, b. split; auto. split; auto.
    intros y [->|I]; [congruence|auto].
Qed.

Lemma oneOf_values : forall PE GE n a b r g st v st', sRef n = None -> sAllOf n = None -> sConstraints n = None ->
  sOneOf n = Some (a :: b :: r) -> accepted PE n g -> yields GE g st v st' ->
  (v = JStr oneOfFailure /\ emitted EvOneOfFail st st') \/
  (((v = JNull /\ emitted EvCutoff st st') \/
    exists sub g', In sub (a :: b :: r) /\ branchOf PE true n sub g' /\ madeBy GE g' v st st') /\
   (emitted EvUnchecked st st' \/
    exists es, checkedBranches PE (a :: b :: r) es /\ exactlyOne (fun e => eValid GE e v = true) es)).
Proof.
  intros PE GE n x y r g st v st' R A C O HA HY. apply accepted_step in HA; auto. destruct HA as (f & s & s' & H).
  pose proof (step_supported _ _ _ _ _ _ H) as HU. unfold stepF, schemaStep in H. rewrite HU, R, A, O in H.
  cbn [is_some orb] in H. apply parseCombination_shape in H. rewrite O in H. cbn [get_or] in H.
  destruct H as (gs & F & ms & es & s1 & s2 & s3 & s4 & H1 & H2 & ->).
  apply mergeEach_shape in H1. apply compileBranches_shape in H2.
  assert (CB : checkedBranches PE (x :: y :: r) es).
  { exists ms. split; [|exact H2]. clear - H1. induction H1; constructor; auto. destruct H as (p & q & H). eauto. }
  assert (FR : forall w p q, (w = JNull /\ emitted EvCutoff p q) \/ (exists g', In g' gs /\ madeBy GE g' w p q) -> after st p -> after q st' ->
     (w = JNull /\ emitted EvCutoff st st') \/
     exists sub g', In sub (x :: y :: r) /\ branchOf PE true n sub g' /\ madeBy GE g' w st st').
  { intros w p q [[-> E]|(g' & I & M)] P Q; [left; split; auto; eapply emitted_widen; eauto|right].
    destruct (Forall2_In_r _ _ _ _ _ _ F I) as (sub & I' & B). exists sub, g'. split; auto. split; auto.
    destruct M as (u & t & M & U & T). exists u, t. split; auto. split; eapply after_trans; eauto. }
  apply yields_step in HY. destruct HY as (k & HY). cbn [genStep] in HY.
  apply constrained_inv in HY. destruct HY as (v0 & t0 & G0 & A0 & HY).
  assert (P0 : prod (generate GE k) (GComb gs) v0 st t0) by (exists st, t0; split; auto; split; apply after_refl).
  destruct HY as [(-> & E & A1)|(t1 & A1 & HY)].
  - right. split; [|auto]. apply comb_prod in P0. eapply FR; eauto. apply after_refl.
  - cbn [applyConstr] in HY. apply bindM_ok in HY. destruct HY as (a & s0 & H & HY). pose proof (fwd_budget _ _ _ _ _ H) as AB.
    assert (A2 : after s0 st').
    { apply (fwd_of_inv _ (oneOfTry GE (generate GE k) (Z.to_nat a) es (GComb gs) v0)) with (2 := HY). intros.
      apply inv_oneOfTry; auto using stable_after. intros. apply invG; auto. apply fwd_generate. }
    apply oneOfTry_ok in HY; [|apply fwd_generate].
    destruct HY as [[V [->|P]]|[-> E]].
    + right. split.
      * apply comb_prod in P0. eapply FR; eauto. apply after_refl. eapply after_trans; [exact A1|]. eapply after_trans; eauto.
      * right. exists es. split; auto. apply exactlyOne_filter. exact V.
    + right. split.
      * apply comb_prod in P. eapply FR; eauto; [|apply after_refl]. eapply after_trans; [exact A0|]. eapply after_trans; eauto.
      * right. exists es. split; auto. apply exactlyOne_filter. exact V.
    + left. split; auto. eapply emitted_widen; [exact E| |apply after_refl]. eapply after_trans; [exact A0|]. eapply after_trans; eauto.
Qed.

(* ------------------------------------------------------------------ errors *)
(* a node turned into a generator: the errors are those recorded by parseSchemaNode *)
Lemma parseNode_errs : forall PE fuel n s g s', sConstraints n = None -> parseNode PE fuel n s = Ok (Good g, s') ->
  exists f s1 s2, stepF PE f n s1 = Ok (Good g, s2) /\ pErrs s1 = pErrs s /\ pErrs s' = pErrs s2 /\
    pPath s1 = pPath s /\ pRes s1 = pRes s /\ scope s1 = scope s /\ pParsing s1 = pParsing s /\
    pDepth s1 <= pxMaxDepth PE /\ pDepth s1 <= pDeep s1 /\ fuel = S (S f).
Proof.
  intros PE fuel n s r s' HC H. unfold parseNode in H. destruct fuel as [|f]; [discriminate|].
  cbn [parseF] in H. unfold nodeStep in H.
  apply pbind_ok in H. destruct H as (a & s0 & H0 & H). apply pget_ok in H0. destruct H0 as [-> ->].
  apply pbind_ok in H. destruct H as (u & s0 & H0 & H). apply pmod_ok in H0. subst s0.
  apply pbind_ok in H. destruct H as (r1 & s3 & H0 & H).
  apply pbind_ok in H. destruct H as (a & s4 & H1 & H). apply pget_ok in H1. destruct H1 as [-> ->].
  apply pbind_ok in H. destruct H as (a & s5 & H1 & H). apply pret_ok in H. destruct H as [<- ->].
  apply pmod_ok in H1. subst s5.
  destruct (Z.ltb_spec (pxMaxDepth PE) (pDepth s + 1)).
  - unfold bad in H0. apply pret_ok in H0. destruct H0 as [D _]. discriminate.
  - apply pbind_ok in H0. destruct H0 as (a' & s0 & H2 & H0). apply pmod_ok in H2. subst s0.
    apply pbind_ok in H0. destruct H0 as (r0 & s2 & H2 & H0).
    destruct f as [|f']; [discriminate|]. cbn [parseF] in H2.
    exists f', (withDeep (Z.max (pDeep s) (pDepth s + 1)) (withDepth (pDepth s + 1) s)), s2.
    apply pbind_ok in H0. destruct H0 as (x1 & y1 & H3 & H0).
    apply pbind_ok in H0. destruct H0 as (x2 & y2 & H4 & H0).
    apply pbind_ok in H0. destruct H0 as (x3 & y3 & H5 & H0).
    rewrite HC in H0. apply pret_ok in H0. destruct H0 as [<- ->]. cbn [isBad] in H3. apply pret_ok in H3. destruct H3 as [_ ->].
    assert (E4 : pErrs y2 = pErrs s2).
    { destruct (sId n).
      - unfold addIdRef in H4. apply pmod_ok in H4. subst y2. reflexivity.
      - apply pret_ok in H4. destruct H4 as [_ ->]. reflexivity. }
    unfold addRef, addIdRef in H5. apply pmod_ok in H5. subst y3.
    split; [exact H2|]. split; [reflexivity|]. split; [exact (eq_sym (eq_sym E4))|].
    split; auto. split; auto. split; auto. split; auto. split; [cbn; lia|]. split; [cbn; lia|reflexivity].
Qed.

Lemma reports_errs : forall a b a' b' t, pErrs a' = pErrs a -> pErrs b' = pErrs b -> reports a b t -> reports a' b' t.
Proof. intros a b a' b' t A B (l & d & p & H & I). exists l, d, p. rewrite A, B. auto. Qed.
Lemma reports_none : forall a b t, reports a b t -> pErrs b <> pErrs a.
Proof.
  intros a b t (l & d & p & H & I) E. rewrite H in E. apply (f_equal (@List.length _)) in E. rewrite app_length in E.
  destruct l; [destruct I|]. simpl in E. lia.
Qed.

(* ------------------------------------------------------------------ if *)
Lemma schema_accepted : forall PE f m s g s', sConstraints m = None -> pDepth s <= pxMaxDepth PE -> pDepth s <= pDeep s ->
  parseF PE (S f) true m s = Ok (Good g, s') -> accepted PE m g.
Proof.
  intros PE f m s g s' C D1 D2 H. cbn [parseF] in H. apply node_of_step in H; [|exact C|exact D1|exact D2].
  destruct H as (x & y & H). exists (S (S f)), x, y. exact H.
Qed.
Lemma withoutIf_constraints : forall n, sConstraints (withoutIf n) = sConstraints n.
Proof. destruct n; reflexivity. Qed.

Lemma if_parts : forall PE n c fuel g s s', sRef n = None -> sAllOf n = None -> sAnyOf n = None -> sOneOf n = None ->
  sNot n = None -> sMergedNot n = [] -> sMergedIf n = [] -> sConstraints n = None -> sIf n = Some c ->
  parseNode PE fuel n s = Ok (Good g, s') ->
  exists g0, accepted PE (withoutIf n) g0 /\
    ((g = g0 /\ reports s s' "if") \/
     exists t c' th el, compiledAs PE t c (pPath t ++ "/" ++ "/if/0") c' /\
       ifBranch PE (withoutIf n) (sThen n) th /\ ifBranch PE (withoutIf n) (sElse n) el /\
       g = GConstrained g0 [CIf [(c', (th, el))]]).
Proof.
  intros PE n c fuel g s s' R A AO OO N MN MI C I HP. apply parseNode_errs in HP; auto.
  destruct HP as (f & s1 & s2 & H & E1 & E2 & _ & _ & _ & _ & D1 & D2 & _).
  pose proof (step_supported _ _ _ _ _ _ H) as HU.
  unfold stepF, schemaStep in H. rewrite HU, R, A, OO, AO, N, MN, I, MI in H. cbn [is_some orb] in H.
  unfold parseIf in H. apply pbind_ok in H. destruct H as (a & s0 & H0 & H). apply pget_ok in H0. destruct H0 as [-> ->].
  rewrite MI, I in H. cbn [app] in H. change (set_sIf None (set_sThen None (set_sElse None (set_sMergedIf [] n)))) with (withoutIf n) in H.
  pose proof (withoutIf_constraints n) as CW. rewrite C in CW. revert H CW. generalize (withoutIf n). intros m H CW.
  apply pbind_ok in H. destruct H as (r & s0 & H0 & H). destruct r as [g0|w]; [|apply bad_ok in H; tauto].
  destruct f as [|f]; [discriminate|].
  assert (HA : accepted PE m g0) by (eapply schema_accepted; eauto).
  exists g0. split; auto. pose proof (st_parseF PE (S f) true _ _ _ _ H0) as K0.
  apply pbind_ok in H. destruct H as (cs & s3 & H1 & H). cbn [compileIfs] in H1.
  apply pbind_ok in H1. destruct H1 as (k & s4 & H1 & H2). destruct k as [k|w].
  - apply pbind_ok in H2. destruct H2 as (ks & s5 & H2 & H3). apply pret_ok in H2. destruct H2 as [-> ->].
    apply pret_ok in H3. destruct H3 as [-> ->]. apply good_ok in H. destruct H as [-> ->].
    right. apply compileIf_shape in H1. destruct H1 as (c0 & IC & CA & B1 & B2 & _).
    unfold newIf in IC, B1, B2. cbn [ifIf ifThen ifElse] in IC, B1, B2. rewrite I in IC. injection IC as <-.
    destruct k as [c' [th el]]. cbn [fst snd] in *. exists s0, c', th, el. auto.
  - left. apply pbind_ok in H2. destruct H2 as (u & s5 & H2 & H3). apply pret_ok in H3. destruct H3 as [-> ->].
    pose proof (reports_sub _ _ _ _ _ H2) as R1.
    assert (K1 : keeps PE s0 s4).
    { apply (st_compileIf PE (parseF PE (S f) false) (merge PE (S f)) (st_parseF PE _ _) (st_merge PE _) _ _ _ _ _ _ H1). }
    apply pbind_ok in H. destruct H as (u' & s6 & H4 & H5). apply good_ok in H5. destruct H5 as [-> ->].
    pose proof (st_addErrSub PE _ _ _ _ _ H4) as K2. split; auto.
    eapply reports_errs; [symmetry; exact E1|exact E2|]. eapply reports_before; [exact K0|]. eapply reports_before; [exact K1|].
    eapply reports_after; [exact R1|exact K2].
Qed.

Lemma if_values : forall PE GE n c fuel g s s' st v st', sRef n = None -> sAllOf n = None -> sAnyOf n = None -> sOneOf n = None ->
  sNot n = None -> sMergedNot n = [] -> sMergedIf n = [] -> sConstraints n = None -> sIf n = Some c ->
  parseNode PE fuel n s = Ok (Good g, s') -> yields GE g st v st' ->
  (v = JStr ifFailure /\ emitted EvIfFail st st') \/
  (fromSchema PE GE (withoutIf n) v st st' /\ (emitted EvUnchecked st st' \/ reports s s' "if")) \/
  exists t c' th el, compiledAs PE t c (pPath t ++ "/" ++ "/if/0") c' /\
    ifBranch PE (withoutIf n) (sThen n) th /\ ifBranch PE (withoutIf n) (sElse n) el /\
    ((eValid GE c' v = true /\ match th with Some gt => madeBy GE gt v st st' | None => fromSchema PE GE (withoutIf n) v st st' end) \/
     (eValid GE c' v = false /\ match el with Some ge => madeBy GE ge v st st' | None => fromSchema PE GE (withoutIf n) v st st' end)).
Proof.
  intros PE GE n c fuel g s s' st v st' R A AO OO N MN MI C I HP HY.
  destruct (if_parts _ _ _ _ _ _ _ R A AO OO N MN MI C I HP) as (g0 & HA & [[-> RP]|(t & c' & th & el & CA & B1 & B2 & ->)]).
  - right. left. split; auto. exists g0. split; auto. apply yields_made; auto.
  - apply yields_step in HY. destruct HY as (k & HY). cbn [genStep] in HY.
    apply constrained_inv in HY. destruct HY as (v0 & t0 & G0 & A0 & HY).
    destruct HY as [(-> & E & A1)|(t1 & A1 & HY)].
    + right. left. split; auto. exists g0. split; auto. exists st, t0. split; [exists k; auto|]. split; auto. apply after_refl.
    + cbn [applyConstr] in HY. apply bindM_ok in HY. destruct HY as (b & s0 & H & HY). pose proof (fwd_budget _ _ _ _ _ H) as AB.
      assert (A2 : after s0 st').
      { apply (fwd_of_inv _ (ifTry GE (generate GE k) (Z.to_nat b) [(c', (th, el))] g0 v0)) with (2 := HY). intros.
        apply inv_ifTry; auto using stable_after; intros; try (apply invG; auto; apply fwd_generate). }
      assert (A3 : after st s0) by (eapply after_trans; [exact A0|]; eapply after_trans; eauto).
      apply ifTry_single in HY; [|apply fwd_generate].
      destruct HY as [(u & U & SD)|[-> E]].
      * assert (FU : fromSchema PE GE (withoutIf n) u st st').
        { exists g0. split; auto. destruct U as [->|U].
          - exists st, t0. split; [exists k; auto|]. split; [apply after_refl|]. eapply after_trans; [exact A1|]. eapply after_trans; eauto.
          - apply prod_made in U. destruct U as (x & y & U & X & Y). exists x, y. split; auto. split; auto. eapply after_trans; eauto. }
        assert (W : forall ge, prod (generate GE k) ge v s0 st' -> madeBy GE ge v st st').
        { intros ge P. apply prod_made in P. destruct P as (x & y & P & X & Y). exists x, y. split; auto. split; auto. eapply after_trans; eauto. }
        right. right. exists t, c', th, el. split; auto. split; auto. split; auto. unfold ifSide in SD.
        destruct SD as [(V & [[-> ->]|(ge & -> & P)])|(V & [[-> ->]|(ge & -> & P)])]; [left|left|right|right]; auto.
      * left. split; auto. eapply emitted_widen; [exact E|exact A3|apply after_refl].
Qed.
