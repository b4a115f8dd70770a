(* Proofs behind P_Tries.v *)
From Coq Require Import ZArith List String Ascii Bool Lia.
From Verif Require Import Base Float64 Json Schema Util Rand Options Number Gen GenFacts GenInv GenValues.
From Verif Require Import PState RefPath Merge NotMerge Parse PFacts ParseKeep SpecSchema SpecParse MergeFlat SpecRun ParseShape NotProps ValueProps ConstrProps SpecTries.
From Verif Require NotValues NotSound.
Import ListNotations.
Open Scope string_scope.
Open Scope Z_scope.

(* ------------------------------------------------------------------ the loops *)
Section Loops.
Variable GE : env.
Variable fuel : nat.
Notation G := (generate GE fuel).
Variable g : gen.
Variable candidate : gst -> json -> gst -> Prop.
Hypothesis made : forall s v s', G g s = Ok (v, s') -> candidate s v s'.

Lemma multi_tries : forall (keep refuse : json -> Prop) c, (forall v, if multiPassed GE c v then keep v else refuse v) ->
  forall n st a v b s w s', after st a -> candidate a v b -> after a b -> after b s -> multiTry GE G n c g v s = Ok (w, s') ->
  tries candidate (judged keep refuse) multiFailure n st w s'.
Proof.
  intros keep refuse c HP. induction n; intros st a v b s w s' A1 HC A0 A2 H; simpl in H.
  - stepM H. pose proof (fwd_emit EvConstraintFail s _ _ H0) as AE. apply ret_ok in H. destruct H as [-> ->].
    apply tries_failed. eapply after_trans; [exact A1|]. eapply after_trans; [exact A0|]. eapply after_trans; eauto.
  - specialize (HP v) as HV. destruct (multiPassed GE c v).
    + apply ret_ok in H. destruct H as [-> ->]. eapply tries_done; [exact A1|exact HC|exact A0|]. split; auto.
    + stepM H. eapply tries_next; [exact A1|exact HC|exact A0|split; [exact A2|exact HV]|].
      eapply IHn; [apply after_refl|apply made; exact H0|eapply fwd_generate; exact H0|apply after_refl|exact H].
Qed.

Lemma oneOf_tries : forall (keep refuse : json -> Prop) l, (forall v, if oneOfPassed GE l v then keep v else refuse v) ->
  forall n st a v b s w s', after st a -> candidate a v b -> after a b -> after b s -> oneOfTry GE G n l g v s = Ok (w, s') ->
  tries candidate (judged keep refuse) oneOfFailure n st w s'.
Proof.
  intros keep refuse l HP. induction n; intros st a v b s w s' A1 HC A0 A2 H; simpl in H.
  - stepM H. pose proof (fwd_emit EvOneOfFail s _ _ H0) as AE. apply ret_ok in H. destruct H as [-> ->].
    apply tries_failed. eapply after_trans; [exact A1|]. eapply after_trans; [exact A0|]. eapply after_trans; eauto.
  - stepM H. pose proof (fwd_tick _ _ _ H0) as AT. specialize (HP v) as HV. destruct (oneOfPassed GE l v).
    + apply ret_ok in H. destruct H as [-> ->]. eapply tries_done; [exact A1|exact HC|exact A0|]. split; auto. eapply after_trans; eauto.
    + stepM H. eapply tries_next; [exact A1|exact HC|exact A0|split; [eapply after_trans; eauto|exact HV]|].
      eapply IHn; [apply after_refl|apply made; exact H1|eapply fwd_generate; exact H1|apply after_refl|exact H].
Qed.

Lemma attempt_by : forall c th el v s r s', ifAttempt GE G (c, (th, el)) v s = Ok (r, s') -> byCondition GE c th el v r s s'.
Proof.
  intros c th el v s r s' H.
  assert (A : after s s').
  { apply (fwd_of_inv _ (ifAttempt GE G (c, (th, el)) v)) with (2 := H). intros. apply inv_ifAttempt; auto using stable_after;
    intros; try (apply invG; auto; apply fwd_generate). }
  split; [exact A|]. unfold ifAttempt in H. destruct (eValid GE c v) eqn:V.
  - destruct th as [gt|]; [|apply ret_ok in H; destruct H as [-> ->]; reflexivity].
    stepM H. exists a. apply ret_ok in H. destruct H as [-> ->]. split.
    + exists s, s0. split; [exists fuel; exact H0|]. split; apply after_refl.
    + destruct (eValid GE c a); reflexivity.
  - destruct el as [ge|]; [|apply ret_ok in H; destruct H as [-> ->]; reflexivity].
    stepM H. exists a. apply ret_ok in H. destruct H as [-> ->]. split.
    + exists s, s0. split; [exists fuel; exact H0|]. split; apply after_refl.
    + destruct (eValid GE c a); reflexivity.
Qed.
Lemma by_widen : forall c th el v r a b a', byCondition GE c th el v r a b -> after a' a -> byCondition GE c th el v r a' b.
Proof.
  intros c th el v r a b a' [A H] A'. split; [eapply after_trans; eauto|]. destruct (if eValid GE c v then th else el); [|exact H].
  destruct H as (w & (x & y & Y & X1 & X2) & R). exists w. split; auto. exists x, y. split; auto. split; auto. eapply after_trans; eauto.
Qed.

Lemma if_tries : forall c th el n st a v b s w s', after st a -> candidate a v b -> after a b -> after b s ->
  ifTry GE G n [(c, (th, el))] g v s = Ok (w, s') -> tries candidate (byCondition GE c th el) ifFailure n st w s'.
Proof.
  intros c th el. induction n; intros st a v b s w s' A1 HC A0 A2 H; cbn [ifTry] in H.
  - stepM H. pose proof (fwd_emit EvIfFail s _ _ H0) as AE. apply ret_ok in H. destruct H as [-> ->].
    apply tries_failed. eapply after_trans; [exact A1|]. eapply after_trans; [exact A0|]. eapply after_trans; eauto.
  - stepM H. pose proof (fwd_tick _ _ _ H0) as B1.
    stepM H. assert (B2 : after s0 s1) by (eapply fwd_draws; exact H1). clear H0 H1.
    assert (HP : perm (List.length [(c, (th, el))]) (nthDraw a1) = [0%nat]).
    { unfold perm, perm_loop. cbn [List.length]. unfold upd_nth. cbn [Z.of_nat Pos.of_succ_nat].
      rewrite Z.mod_1_r. reflexivity. }
    rewrite HP in H. stepM H. cbn [ifPass nth_error] in H0. stepM H0.
    assert (AB : after b s1) by (eapply after_trans; [exact A2|]; eapply after_trans; eauto).
    apply attempt_by in H1. apply by_widen with (a' := b) in H1; [|exact AB].
    destruct a3 as [u|]; apply ret_ok in H0; destruct H0 as [-> ->].
    + apply ret_ok in H. destruct H as [-> ->]. eapply tries_done; [exact A1|exact HC|exact A0|exact H1].
    + stepM H. eapply tries_next; [exact A1|exact HC|exact A0|exact H1|].
      eapply IHn; [apply after_refl|apply made; exact H0|eapply fwd_generate; exact H0|apply after_refl|exact H].
Qed.
End Loops.

Lemma budget_granted : forall GE base s b s', budget GE base s = Ok (b, s') -> s' = s /\ b = scaledRetryBudget (eOpts GE) (gCx s) base.
Proof. intros GE base s b s' H. unfold budget in H. stepM H. unfold getCx in H0. injection H0 as <- <-. apply ret_ok in H. destruct H as [-> ->]. auto. Qed.
Lemma granted_at : forall GE base st s st', after st s -> after s st' ->
  granted GE base st st' (Z.to_nat (scaledRetryBudget (eOpts GE) (gCx s) base)).
Proof.
  intros GE base st s st' (_ & _ & A & _) (_ & _ & B & _). exists (gCx s). split; [lia|]. rewrite Z2Nat.id; auto.
  pose proof (NotValues.budget_pos (eOpts GE) (gCx s) base). lia.
Qed.
Lemma yields_after : forall GE g a v b, yields GE g a v b -> after a b.
Proof. intros GE g a v b (f & H). eapply fwd_generate; eauto. Qed.

(* ------------------------------------------------------------------ oneOf *)
Lemma exactlyOne_none : forall (p : schemaNode -> bool) l, (List.length (filter p l) =? 1)%nat = false -> ~ exactlyOne (fun x => p x = true) l.
Proof.
  intros p l H (a & x & b & -> & X & N). apply Nat.eqb_neq in H. apply H.
  rewrite filter_app, app_length. cbn [filter]. rewrite X. cbn [List.length].
  assert (Z : forall l', (forall y, In y l' -> p y <> true) -> filter p l' = []).
  { clear. induction l' as [|y l' IH]; intros Y; [reflexivity|]. cbn [filter]. destruct (p y) eqn:E; [exfalso; apply (Y y); simpl; auto|].
    apply IH. intros z I. apply Y. simpl; auto. }
  rewrite (Z a), (Z b); [reflexivity| |]; intros y I; apply N; apply in_or_app; auto.
Qed.

Lemma oneOf_attempts : forall PE GE n a b r g st v st', sRef n = None -> sAllOf n = None -> sConstraints n = None ->
  sOneOf n = Some (a :: b :: r) -> accepted PE n g -> yields GE g st v st' ->
  emitted EvUnchecked st st' \/
  exists es k, checkedBranches PE (a :: b :: r) es /\ granted GE (oMaximumOneOfAttempts (eOpts GE)) st st' k /\
    tries (fun p w q => (w = JNull /\ emitted EvCutoff p q) \/
             exists sub g', In sub (a :: b :: r) /\ branchOf PE true n sub g' /\ madeBy GE g' w p q)
          (judged (fun w => exactlyOne (fun e => eValid GE e w = true) es) (fun w => ~ exactlyOne (fun e => eValid GE e w = true) es))
          oneOfFailure k st v st'.
Proof.
  intros PE GE n x y r g st v st' R A C O HA HY. apply accepted_step in HA; auto. destruct HA as (f & s & s' & H).
  pose proof (step_supported _ _ _ _ _ _ H) as HU. unfold stepF, schemaStep in H. rewrite HU, R, A, O in H.
  cbn [is_some orb] in H. apply parseCombination_shape in H. rewrite O in H. cbn [get_or] in H.
  destruct H as (gs & F & ms & es & s1 & s2 & s3 & s4 & H1 & H2 & ->).
  apply mergeEach_shape in H1. apply compileBranches_shape in H2.
  assert (CB : checkedBranches PE (x :: y :: r) es).
  { exists ms. split; [|exact H2]. clear - H1. induction H1; constructor; auto. destruct H as (p & q & H). eauto. }
  apply yields_step in HY. destruct HY as (k & HY). cbn [genStep] in HY.
  apply constrained_inv in HY. destruct HY as (v0 & t0 & G0 & A0 & HY).
  destruct HY as [(-> & E & A1)|(t1 & A1 & HY)]; [auto|right].
  cbn [applyConstr] in HY. apply bindM_ok in HY. destruct HY as (a & s0 & H & HY). apply budget_granted in H. destruct H as [-> ->].
  assert (A2 : after t1 st').
  { apply (fwd_of_inv _ (oneOfTry GE (generate GE k) (Z.to_nat (scaledRetryBudget (eOpts GE) (gCx t1) (oMaximumOneOfAttempts (eOpts GE)))) es (GComb gs) v0)) with (2 := HY). intros.
    apply inv_oneOfTry; auto using stable_after. intros. apply invG; auto. apply fwd_generate. }
  exists es. eexists. split; [exact CB|]. split; [eapply granted_at; [|exact A2]; eapply after_trans; eauto|].
  assert (made : forall p w q, generate GE k (GComb gs) p = Ok (w, q) -> (w = JNull /\ emitted EvCutoff p q) \/
             exists sub g', In sub (x :: y :: r) /\ branchOf PE true n sub g' /\ madeBy GE g' w p q).
  { intros p w q Hg. destruct (comb_value GE gs p w q) as [Hv|(g' & I & M)]; [exists k; exact Hg|auto|right].
    destruct (Forall2_In_r _ _ _ _ _ _ F I) as (sub & I' & B). eauto. }
  eapply (oneOf_tries GE k (GComb gs)) with (l := es); [exact made| |apply after_refl|apply made; exact G0|exact A0|exact A1|exact HY].
  intros w. unfold oneOfPassed. destruct (_ =? _)%nat eqn:Q; [apply exactlyOne_filter; exact Q|apply exactlyOne_none; exact Q].
Qed.

(* ------------------------------------------------------------------ if *)
Lemma if_attempts : forall PE GE n c fuel g s s' st v st', sRef n = None -> sAllOf n = None -> sAnyOf n = None -> sOneOf n = None ->
  sNot n = None -> sMergedNot n = [] -> sMergedIf n = [] -> sConstraints n = None -> sIf n = Some c ->
  parseNode PE fuel n s = Ok (Good g, s') -> yields GE g st v st' ->
  emitted EvUnchecked st st' \/ reports s s' "if" \/
  exists g0 t c' th el k, accepted PE (withoutIf n) g0 /\ compiledAs PE t c (pPath t ++ "/" ++ "/if/0") c' /\
    ifBranch PE (withoutIf n) (sThen n) th /\ ifBranch PE (withoutIf n) (sElse n) el /\
    granted GE (oMaximumIfAttempts (eOpts GE)) st st' k /\
    tries (yields GE g0) (byCondition GE c' th el) ifFailure k st v st'.
Proof.
  intros PE GE n c fuel g s s' st v st' R A AO OO N MN MI C I HP HY.
  destruct (if_parts _ _ _ _ _ _ _ R A AO OO N MN MI C I HP) as (g0 & HA & [[-> RP]|(t & c' & th & el & CA & B1 & B2 & ->)]); [auto|].
  apply yields_step in HY. destruct HY as (k & HY). cbn [genStep] in HY.
  apply constrained_inv in HY. destruct HY as (v0 & t0 & G0 & A0 & HY).
  destruct HY as [(-> & E & A1)|(t1 & A1 & HY)]; [auto|right; right].
  cbn [applyConstr] in HY. apply bindM_ok in HY. destruct HY as (b & s0 & H & HY). apply budget_granted in H. destruct H as [-> ->].
  assert (A2 : after t1 st').
  { apply (fwd_of_inv _ (ifTry GE (generate GE k) (Z.to_nat (scaledRetryBudget (eOpts GE) (gCx t1) (oMaximumIfAttempts (eOpts GE)))) [(c', (th, el))] g0 v0)) with (2 := HY). intros.
    apply inv_ifTry; auto using stable_after; intros; try (apply invG; auto; apply fwd_generate). }
  exists g0, t, c', th, el. eexists. split; [exact HA|]. split; [exact CA|]. split; [exact B1|]. split; [exact B2|].
  split; [eapply granted_at; [|exact A2]; eapply after_trans; eauto|].
  eapply (if_tries GE k g0); [|apply after_refl| |exact A0|exact A1|exact HY].
  - intros p w q Hg. exists k. exact Hg.
  - exists k. exact G0.
Qed.

(* ------------------------------------------------------------------ not: nothing else is excluded *)
Lemma addKey_only : forall A (eqb : A -> A -> bool) l x y, In y (addKey eqb l x) -> In y l \/ y = x.
Proof. intros A eqb l x y H. unfold addKey in H. destruct (existsb _ _); auto. apply in_app_or in H. destruct H as [H|[H|[]]]; auto. Qed.
Lemma addKeys_only : forall A (eqb : A -> A -> bool) xs l y, In y (addKeys eqb l xs) -> In y l \/ In y xs.
Proof.
  intros A eqb. induction xs as [|x xs IH]; intros l y H; unfold addKeys in H; cbn [fold_left] in H; [auto|].
  apply IH in H. destruct H as [H|H]; [|simpl; auto]. apply addKey_only in H. simpl. destruct H as [H| ->]; auto.
Qed.

Definition onlyFrom (x : schemaNode) (c0 c : ccoll) : Prop :=
  (forall p, In p (ccRegex c) -> In p (ccRegex c0) \/ sPattern x = Some p) /\
  (forall f, In f (ccFormat c) -> In f (ccFormat c0) \/ sFormat x = Some f) /\
  (forall e, In e (ccValues c) -> In e (ccValues c0) \/ exists w, e = marshal w /\ (sConst x = Some w \/ exists l, sEnum x = Some l /\ In w l)) /\
  (forall k, In k (ccProps c) -> In k (ccProps c0) \/ In k (get_or (sRequired x) [])).
Lemma onlyFrom_refl : forall x c, onlyFrom x c c.
Proof. intros. repeat split; auto. Qed.
Lemma onlyFrom_trans : forall x a b c, onlyFrom x a b -> onlyFrom x b c -> onlyFrom x a c.
Proof.
  intros x a b c (A1 & A2 & A3 & A4) (B1 & B2 & B3 & B4). split; [|split; [|split]]; intros y H.
  - destruct (B1 y H); auto.
  - destruct (B2 y H); auto.
  - destruct (B3 y H); auto.
  - destruct (B4 y H); auto.
Qed.

Lemma only_string : forall E st n x s r s', notApplyString E st n x s = Ok (r, s') -> onlyFrom x (snd st) (snd r).
Proof.
  intros E [m0 c0] n x s r s' H. unfold notApplyString in H. apply pbind_ok in H. destruct H as (b & s1 & _ & H). cbn [snd].
  assert (W : forall fld (mc : nstate) (b : pst) r0, (run* warnField fld in pret mc) b = Ok (r0, s') -> r0 = mc).
  { clear. intros fld mc b r0 X. apply pbind_ok in X. destruct X as (u' & s2 & _ & Y). apply pret_ok in Y. tauto. }
  destruct (sPattern x) as [p|] eqn:EP.
  - destruct (String.eqb _ _); [apply W in H; subst r; apply onlyFrom_refl|].
    destruct (_ || _); [|apply W in H; subst r; apply onlyFrom_refl].
    apply pret_ok in H. destruct H as [-> _]. split; [|split; [|split]]; cbn; auto.
    intros q I. apply addKey_only in I. destruct I as [I| ->]; auto.
  - destruct (sFormat x) as [f|] eqn:EF; [|apply pret_ok in H; destruct H as [-> _]; apply onlyFrom_refl].
    destruct (String.eqb _ _); [apply W in H; subst r; apply onlyFrom_refl|].
    destruct (_ || _); [|apply W in H; subst r; apply onlyFrom_refl].
    apply pret_ok in H. destruct H as [-> _]. split; [|split; [|split]]; cbn; auto.
    intros q I. apply addKey_only in I. destruct I as [I| ->]; auto.
Qed.
Lemma only_enum : forall st n x s r s', notApplyEnum st n x s = Ok (r, s') -> onlyFrom x (snd st) (snd r).
Proof.
  intros [m0 c0] n x s r s' H. unfold notApplyEnum in H. cbn [snd].
  assert (W : forall fld (mc : nstate) (b : pst) r0, (run* warnField fld in pret mc) b = Ok (r0, s') -> r0 = mc).
  { clear. intros fld mc b r0 X. apply pbind_ok in X. destruct X as (u' & s2 & _ & Y). apply pret_ok in Y. tauto. }
  assert (RS : forall l, (match l with [] => run* warnField "not/enum" in pret (m0, c0) | j :: l0 => pret (set_sEnum (Some (map reread (j :: l0))) m0, c0) end) s
     = Ok (r, s') -> onlyFrom x c0 (snd r)).
  { intros [|a l] X; [apply W in X; subst r|apply pret_ok in X; destruct X as [-> _]]; apply onlyFrom_refl. }
  assert (AV : forall l m, sEnum x = Some l -> pret (m, addValues (map marshal l) c0) s = Ok (r, s') -> onlyFrom x c0 (snd r)).
  { intros l m EX X. apply pret_ok in X. destruct X as [-> _]. split; [|split; [|split]]; cbn; auto.
    intros e I. apply addKeys_only in I. destruct I as [I|I]; auto. right. apply in_map_iff in I. destruct I as (w & <- & I). exists w. split; auto.
    right. exists l. auto. }
  destruct (sEnum n) as [en|] eqn:EN, (sEnum x) as [ex|] eqn:EX; cbn [get_or] in H.
  - destruct en as [|a en], ex as [|b ex]; cbn [get_or] in H; try (apply RS in H; exact H).
    destruct (sConst n) as [v|]; [|eapply AV; eauto].
    destruct (mem_enc _ _); [apply W in H; subst r; apply onlyFrom_refl|apply RS in H; exact H].
  - destruct en; apply RS in H; exact H.
  - destruct ex as [|b ex]; [apply RS in H; exact H|]. destruct (sConst n) as [v|]; [|eapply AV; eauto].
    destruct (mem_enc _ _); [apply W in H; subst r; apply onlyFrom_refl|apply RS in H; exact H].
  - apply pret_ok in H. destruct H as [-> _]. apply onlyFrom_refl.
Qed.
Lemma only_const : forall st n x s r s', notApplyConst st n x s = Ok (r, s') -> onlyFrom x (snd st) (snd r).
Proof.
  intros [m0 c0] n x s r s' H. unfold notApplyConst in H. cbn [snd]. destruct (sConst x) as [w|] eqn:EC.
  - match type of H with (if ?b then _ else _) _ = _ => destruct b end.
    + apply pbind_ok in H. destruct H as (u & s2 & X & Y). apply pret_ok in Y. destruct Y as [-> ->]. apply onlyFrom_refl.
    + apply pret_ok in H. destruct H as [-> _]. split; [|split; [|split]]; cbn; auto.
      intros e I. apply addKey_only in I. destruct I as [I| ->]; auto. right. exists w. auto.
  - apply pret_ok in H. destruct H as [-> _]. apply onlyFrom_refl.
Qed.
Lemma only_object : forall rec st n x s r s', notApplyObject rec st n x s = Ok (r, s') -> onlyFrom x (snd st) (snd r).
Proof.
  intros rec [m0 c0] n x s r s' H. unfold notApplyObject in H. cbn [snd].
  repeat match type of H with pbind _ _ _ = _ => apply pbind_ok in H; destruct H as (? & ? & _ & H) end.
  apply pret_ok in H. destruct H as [-> _]. cbn [snd].
  set (gone := filter (fun p => negb (mem_string p (get_or (sRequired n) []))) (get_or (sRequired x) [])) in *.
  assert (P : forall k, In k gone -> In k (get_or (sRequired x) [])) by (intros k I; apply filter_In in I; tauto).
  destruct gone; [apply onlyFrom_refl|]. split; [|split; [|split]]; cbn [addProps ccRegex ccFormat ccValues ccProps]; auto.
  intros k I. apply in_app_or in I. destruct I; auto.
Qed.
Lemma notMerge_only : forall E f n x s m c s', notMerge E f n x s = Ok ((m, c), s') -> onlyFrom x emptyColl c.
Proof.
  intros E [|f] n x s m c s' H; [discriminate|]. cbn [notMerge] in H. unfold notStep in H.
  apply pbind_ok in H. destruct H as (t & s1 & _ & H). destruct t as [m1|].
  2:{ apply pret_ok in H. destruct H as [H _]. apply pair_equal_spec in H. destruct H as [_ ->]. apply onlyFrom_refl. }
  apply pbind_ok in H. destruct H as (r2 & s2 & H2 & H). apply only_string in H2.
  apply pbind_ok in H. destruct H as (r3 & s3 & H3 & H). apply NotValues.coll_number in H3.
  apply pbind_ok in H. destruct H as (r4 & s4 & H4 & H). apply only_enum in H4.
  apply pbind_ok in H. destruct H as (r5 & s5 & H5 & H). apply only_const in H5.
  apply pbind_ok in H. destruct H as (r6 & s6 & H6 & H). apply NotValues.coll_array in H6.
  apply pbind_ok in H. destruct H as (r7 & s7 & H7 & H). apply only_object in H7.
  apply pbind_ok in H. destruct H as (u & s8 & _ & H). apply pret_ok in H. destruct H as [H _].
  apply pair_equal_spec in H. destruct H as [_ ->]. cbn [snd] in *. rewrite H3 in H4. rewrite H6 in H7.
  eapply onlyFrom_trans; [exact H2|]. eapply onlyFrom_trans; [exact H4|]. eapply onlyFrom_trans; eauto.
Qed.

Lemma not_remainder : forall PE f n x g s1 s2, sRef n = None -> sAllOf n = None -> sAnyOf n = None -> sOneOf n = None ->
  sMergedNot n = [] -> sNot n = Some x ->
  sRef x = None -> sAllOf x = None -> sNot x = None -> sMergedNot x = [] ->
  stepF PE f n s1 = Ok (Good g, s2) ->
  exists g0 m c x1 c1, g = GConstrained g0 [CMulti c] /\ remainder PE n x m /\ accepted PE m g0 /\ sameKeys x1 x /\ normal x1 /\
    onlyFrom x1 emptyColl c1 /\ c = mergeColl emptyColl c1.
Proof.
  intros PE f n x g s1 s2 R A AO OO MN N XR XA XN XM H.
  pose proof (step_supported _ _ _ _ _ _ H) as HU.
  unfold stepF, schemaStep in H. rewrite HU, R, A, OO, AO, N in H. cbn [is_some orb] in H.
  unfold parseNot in H. unfold collectNots in H. rewrite N, MN in H. cbn [app] in H. unfold remainder.
  revert H. generalize (set_sNot None (set_sMergedNot [] n)). intros n' H.
  apply pbind_ok in H. destruct H as (p & s3 & H0 & H).
  cbn [partitionNots] in H0.
  apply pbind_ok in H0. destruct H0 as (u & t1 & T1 & H0).
  apply pbind_ok in H0. destruct H0 as (x1 & t2 & T2 & H0).
  assert (X1 : sameKeys x1 x) by (eapply merge_after_empty; [exact XR|exact XA|exact T2]).
  assert (N1 : sNot x1 = None).
  { pose proof (skNots _ _ X1) as K. unfold collectNots in K. rewrite XN, XM in K. cbn [app] in K. apply app_eq_nil in K. destruct K as [K _].
    destruct (sNot x1); [discriminate|reflexivity]. }
  rewrite N1 in H0.
  apply pbind_ok in H0. destruct H0 as (u2 & t3 & T3 & H0).
  apply pbind_ok in H0. destruct H0 as (p0 & t4 & T4 & H0). apply pret_ok in T4. destruct T4 as [-> ->].
  apply pret_ok in H0. destruct H0 as [-> ->]. cbn [fst snd] in H.
  apply pbind_ok in H. destruct H as (n0 & t5 & T5 & H). apply pret_ok in T5. destruct T5 as [-> ->].
  apply pbind_ok in H. destruct H as (n1 & t6 & T6 & H).
  apply pbind_ok in H. destruct H as (st & t7 & T7 & H).
  apply pbind_ok in H. destruct H as (r & t8 & T8 & H). destruct r as [g0|w]; [|apply bad_ok in H; tauto].
  apply good_ok in H. destruct H as [-> ->].
  cbn [applyNots] in T7. apply pbind_ok in T7. destruct T7 as ([m1 c1] & t9 & T9 & T7). apply pret_ok in T7. destruct T7 as [-> ->].
  cbn [fst snd] in *.
  exists g0, m1, (mergeColl emptyColl c1), x1, c1. split; [reflexivity|].
  split; [exists f, x1, n1, c1, t1, t2, t3, t6, t9; auto|]. split; [exists f, t9, t8; exact T8|]. split; [exact X1|].
  split; [eapply merge_normal; [|exact T2]; intros z [<-|[<-|[]]]; auto|].
  split; [eapply notMerge_only; exact T9|reflexivity].
Qed.

(* a value that is refused has something the negated schema asks for *)
Lemma refused_asks : forall GE x x1 c1 v, sameKeys x1 x -> normal x1 -> onlyFrom x1 emptyColl c1 -> multiPassed GE (mergeColl emptyColl c1) v = false -> asksFor GE x v.
Proof.
  intros GE x x1 c1 v [K1 K2 K3 K4 _ _] NX (O1 & O2 & O3 & O4) H. unfold multiPassed in H. cbn [mergeColl ccRegex ccFormat ccValues ccProps emptyColl app] in *.
  apply andb_false_iff in H. destruct H as [H|H]; [apply andb_false_iff in H; destruct H as [H|H]; [apply andb_false_iff in H; destruct H as [H|H]|]|].
  - left. assert (X : existsb (fun p => isStrMatching GE p v) (addKeys String.eqb [] (ccRegex c1)) = true).
    { clear -H. induction (addKeys String.eqb [] (ccRegex c1)) as [|p l IH]; [discriminate|]. cbn [forallb existsb] in *. destruct (isStrMatching GE p v); auto. }
    apply existsb_exists in X. destruct X as (p & I & M). apply addKeys_only in I. destruct I as [[]|I].
    destruct (O1 p I) as [[]|EP]. unfold isStrMatching in M. destruct v; try discriminate. exists p, s. rewrite <- K1. auto.
  - right. left. assert (X : existsb (fun f => eIsFormat GE f v) (addKeys String.eqb [] (ccFormat c1)) = true).
    { clear -H. induction (addKeys String.eqb [] (ccFormat c1)) as [|p l IH]; [discriminate|]. cbn [forallb existsb] in *. destruct (eIsFormat GE p v); auto. }
    apply existsb_exists in X. destruct X as (f & I & M). apply addKeys_only in I. destruct I as [[]|I].
    destruct (O2 f I) as [[]|EF]. exists f. rewrite <- K2. auto.
  - right. right. left. apply negb_false_iff in H. apply existsb_exists in H. destruct H as (e & I & M). apply addKeys_only in I. destruct I as [[]|I].
    destruct (O3 e I) as [[]|(w & -> & HW)]. exists w. split; [|apply same_text_iff in M; congruence].
    assert (CE : forall l, collectEnum x1 = Some l -> In w l -> sConst x = Some w \/ exists l, sEnum x = Some l /\ In w l).
    { intros l CL IL. rewrite K4 in CL. unfold collectEnum in CL. destruct (sEnum x) as [l'|]; [injection CL as ->; eauto|].
      destruct (sConst x) as [y|]; [|discriminate]. injection CL as <-. destruct IL as [->|[]]. auto. }
    destruct HW as [HW|(l & HW & IL)].
    + apply (CE [w]); [|simpl; auto]. unfold collectEnum. unfold normal in NX. rewrite HW in *.
      destruct (sEnum x1) as [[|a [|b l]]|]; [discriminate|destruct NX|discriminate|reflexivity].
    + apply (CE l); [unfold collectEnum; rewrite HW; reflexivity|exact IL].
  - right. right. right. assert (X : existsb (fun p => hasProperty p v) (ccProps c1) = true).
    { clear -H. induction (ccProps c1) as [|p l IH]; [discriminate|]. cbn [forallb existsb] in *. destruct (hasProperty p v); auto. }
    apply existsb_exists in X. destruct X as (k & I & M). destruct (O4 k I) as [[]|EK]. rewrite K3 in EK.
    destruct v as [| | | | | |m]; try discriminate. exists k, m. split; auto. split; auto. cbn [hasProperty] in M. destruct (assoc k m); [discriminate|discriminate].
Qed.

Lemma not_attempts : forall PE GE fuel n x g s s' st v st', sRef n = None -> sAllOf n = None -> sAnyOf n = None -> sOneOf n = None ->
  sMergedNot n = [] -> sConstraints n = None -> sNot n = Some x ->
  sRef x = None -> sAllOf x = None -> sNot x = None -> sMergedNot x = [] ->
  parseNode PE fuel n s = Ok (Good g, s') -> yields GE g st v st' ->
  emitted EvUnchecked st st' \/
  exists m g0 k, remainder PE n x m /\ accepted PE m g0 /\ granted GE (oMaximumUniqueGeneratorAttempts (eOpts GE)) st st' k /\
    tries (yields GE g0) (judged (fun w => True) (asksFor GE x)) multiFailure k st v st'.
Proof.
  intros PE GE fuel n x g s s' st v st' R A AO OO MN C N XR XA XN XM HP HY. apply parseNode_errs in HP; auto.
  destruct HP as (f & s1 & s2 & H & _).
  destruct (not_remainder _ _ _ _ _ _ _ R A AO OO MN N XR XA XN XM H) as (g0 & m & c & x1 & c1 & -> & RM & HA & KX & NX & OC & ->). clear H.
  apply yields_step in HY. destruct HY as (k & HY). cbn [genStep] in HY.
  apply constrained_inv in HY. destruct HY as (v0 & t0 & G0 & A0 & HY).
  destruct HY as [(-> & E & A1)|(t1 & A1 & HY)]; [auto|right].
  cbn [applyConstr] in HY. apply bindM_ok in HY. destruct HY as (b & s0 & H & HY). apply budget_granted in H. destruct H as [-> ->].
  assert (A2 : after t1 st').
  { apply (fwd_of_inv _ (multiTry GE (generate GE k) (Z.to_nat (scaledRetryBudget (eOpts GE) (gCx t1) (oMaximumUniqueGeneratorAttempts (eOpts GE)))) (mergeColl emptyColl c1) g0 v0)) with (2 := HY). intros.
    apply inv_multiTry; auto using stable_after; intros; try (apply invG; auto; apply fwd_generate). }
  exists m, g0. eexists. split; [exact RM|]. split; [exact HA|].
  split; [eapply granted_at; [|exact A2]; eapply after_trans; eauto|].
  eapply (multi_tries GE k g0); [| |apply after_refl| |exact A0|exact A1|exact HY].
  - intros p w q Hg. exists k. exact Hg.
  - intros w. destruct (multiPassed GE (mergeColl emptyColl c1) w) eqn:M; [exact Logic.I|]. eapply refused_asks; eauto.
  - exists k. exact G0.
Qed.
