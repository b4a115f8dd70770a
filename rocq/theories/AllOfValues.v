(* What a node with allOf generates is what the merged node generates. *)
From Coq Require Import ZArith List String Bool Lia.
From Verif Require Import Base Float64 Json Schema Util Options Number Gen GenInv GenValues PState RefPath Merge NotMerge Parse.
From Verif Require Import SpecSchema SpecParse SpecRun PFacts ParseKeep MergeFacts MergeProps NotProps ParseShape ValueProps ConstrProps MergeFlat SpecTries Tries TriesMany.
From Verif Require MergeKeep.
Import ListNotations.
Open Scope string_scope.
Open Scope Z_scope.

Lemma inScope_reports : forall PE f sc n srcs s r s', inScope PE (parseF PE f false) sc n srcs s = Ok (r, s') ->
  exists t t', parseNode PE f n t = Ok (r, t') /\ forall k, reports t t' k -> reports s s' k.
Proof.
  intros PE f sc n srcs s r s' H. unfold inScope in H.
  apply pbind_ok in H. destruct H as (a & s0 & H0 & H).
  apply pbind_ok in H. destruct H as (k & s1 & H1 & H).
  apply pbind_ok in H. destruct H as (r0 & s2 & H2 & H).
  apply pbind_ok in H. destruct H as (a3 & s3 & H3 & H).
  apply pbind_ok in H. destruct H as (a4 & s4 & H4 & H).
  apply pret_ok in H. destruct H as [-> ->]. exists s1, s2. split; [exact H2|]. intros t R.
  apply pmod_ok in H0. apply pushSources_keeps in H1. destruct H1 as (pushed & _ & _ & K). apply popMany_ok in H3. apply pmod_ok in H4. subst.
  destruct (kErrs _ _ _ K) as (l & L). destruct R as (new & d & p & E & I). exists (new ++ l)%list, d, p.
  cbn [pErrs withPath withStack] in *. rewrite E, L, app_assoc. split; [reflexivity|]. apply in_or_app. auto.
Qed.

Theorem allOf_values : forall PE fuel n subs g s s', sRef n = None -> sConstraints n = None -> sAllOf n = Some subs ->
  parseNode PE fuel n s = Ok (Good g, s') ->
  exists f m s1 s2 t g' t', merge PE f (subs ++ [set_sAllOf None n]) s1 = Ok (m, s2) /\
    parseNode PE f m t = Ok (Good g', t') /\ (forall k, reports t t' k -> reports s s' k) /\
    forall GE st v st', yields GE g st v st' <-> yields GE g' st v st'.
Proof.
  intros PE fuel n subs g s s' R C A HP. apply parseNode_errs in HP; auto. destruct HP as (f & s1 & s2 & H & E1 & E2 & _).
  pose proof (step_supported _ _ _ _ _ _ H) as HU. unfold stepF, schemaStep in H. rewrite HU, R, A in H. unfold parseAllOf in H.
  apply pbind_ok in H. destruct H as (m & s3 & HM & H). apply pbind_ok in H. destruct H as (r & s4 & HS & H).
  destruct r as [g'|w]; [|apply bad_ok in H; tauto]. apply good_ok in H. destruct H as [-> ->].
  apply inScope_reports in HS. destruct HS as (t & t' & HT & RP).
  exists f, m, s1, s3, t, g', t'. split; [exact HM|]. split; [exact HT|]. split.
  - intros k K. eapply reports_errs; [symmetry; exact E1|exact E2|]. eapply reports_before; [eapply (st_merge PE); exact HM|]. exact (RP k K).
  - intros GE st v st'. split.
    + intros Y. apply yields_step in Y. destruct Y as (k & Y). exists k. exact Y.
    + intros (k & Y). exists (S k). exact Y.
Qed.

(* ------------------------------------------------------------------ negations in allOf branches *)
Definition notOnly (n : schemaNode) : Prop := sRef n = None /\ sAllOf n = None /\ sAnyOf n = None /\ sOneOf n = None /\ sConstraints n = None.
Lemma into_notOnly : forall rec m n s m' s', mergeInto rec m n s = Ok (m', s') -> sAnyOf m = None -> sOneOf m = None -> sConstraints m = None -> sRef m = None -> notOnly n ->
  sAnyOf m' = None /\ sOneOf m' = None /\ sConstraints m' = None /\ sRef m' = None /\
  forall x, In x (collectNots m') <-> In x (collectNots m) \/ In x (collectNots n).
Proof.
  intros rec m n s m' s' H A1 O1 C1 R1 (R2 & _ & A2 & O2 & C2). fields H.
  assert (X : sAnyOf m' = mergeSlicePtrs (sAnyOf m) (sAnyOf n) /\ sOneOf m' = mergeSlicePtrs (sOneOf m) (sOneOf n) /\ collectNots m' = collectNots (mergeNot m n) /\
              sConstraints m' = mergeConstraints (sConstraints m) (sConstraints n) /\ sRef m' = sRef m).
  { subst m'. unfold collectNots. cbn [sAnyOf sOneOf sNot sMergedNot sConstraints sRef]. subst nt mn. split; [reflexivity|]. split; [reflexivity|]. split; [reflexivity|]. split; [reflexivity|]. rewrite R2. reflexivity. }
  destruct X as (X1 & X2 & X3 & X4 & X5). rewrite A1, A2 in X1. rewrite O1, O2 in X2. rewrite C1, C2 in X4. rewrite X1, X2, X4, X5.
  split; [reflexivity|]. split; [reflexivity|]. split; [reflexivity|]. split; [exact R1|]. intros x. rewrite X3. apply MergeKeep.mergeNot_in.
Qed.
Lemma intoAll_notOnly : forall rec nodes m s m' s', intoAll rec m nodes s = Ok (m', s') -> (forall n, In n nodes -> notOnly n) ->
  sAnyOf m = None -> sOneOf m = None -> sConstraints m = None -> sRef m = None ->
  sAnyOf m' = None /\ sOneOf m' = None /\ sConstraints m' = None /\ sRef m' = None /\
  forall x, In x (collectNots m') <-> In x (collectNots m) \/ exists n, In n nodes /\ In x (collectNots n).
Proof.
  intros rec. induction nodes as [|n r IH]; cbn [intoAll]; intros m s m' s' H P A O C R.
  - apply pret_ok in H. destruct H; subst. repeat (split; [assumption|]). intros x. split; [auto|]. intros [I|(n & [] & _)]. exact I.
  - apply pbind_ok in H. destruct H as (m1 & s1 & H1 & H).
    destruct (into_notOnly _ _ _ _ _ _ H1 A O C R (P n (or_introl eq_refl))) as (A1 & O1 & C1 & R1 & N1).
    destruct (IH _ _ _ _ H (fun y I => P y (or_intror I)) A1 O1 C1 R1) as (A2 & O2 & C2 & R2 & N2). repeat (split; [assumption|]).
    intros x. rewrite N2, N1. split.
    + intros [[I|I]|(y & I & J)]; [left; exact I|right; exists n; split; [left; reflexivity|exact I]|right; exists y; split; [right; exact I|exact J]].
    + intros [I|(y & [<-|I] & J)]; [auto|auto|]. right. exists y. auto.
Qed.
Lemma allOf_nots : forall PE GE fuel n subs nodes g s s' st v st', sRef n = None -> sConstraints n = None -> sAllOf n = Some subs ->
  nodes = (subs ++ [set_sAllOf None n])%list -> (forall y, In y nodes -> notOnly y) ->
  (forall y x, In y nodes -> sNot y = Some x \/ In x (sMergedNot y) -> sRef x = None /\ sAllOf x = None /\ sNot x = None /\ sMergedNot x = []) ->
  (exists y, In y nodes /\ (sNot y <> None \/ sMergedNot y <> [])) ->
  parseNode PE fuel n s = Ok (Good g, s') -> yields GE g st v st' ->
  emitted EvUnchecked st st' \/
  exists f s1 m s2 nots m0 g0 k, merge PE f nodes s1 = Ok (m, s2) /\
    (forall x, In x nots <-> exists y, In y nodes /\ (sNot y = Some x \/ In x (sMergedNot y))) /\
    remainders PE m nots m0 /\ accepted PE m0 g0 /\ granted GE (oMaximumUniqueGeneratorAttempts (eOpts GE)) st st' k /\
    tries (yields GE g0) (judged (fun w => True) (fun w => exists x, In x nots /\ asksFor GE x w)) multiFailure k st v st'.
Proof.
  intros PE GE fuel n subs nodes g s s' st v st' R C A EN P Q (y0 & I0 & N0) HP HY.
  destruct (allOf_values _ _ _ _ _ _ _ R C A HP) as (f & m & s1 & s2 & t & g' & t' & HM & HT & _ & EQ). rewrite <- EN in HM. apply EQ in HY. clear EQ HP.
  assert (PF : forall y, In y nodes -> sRef y = None /\ sAllOf y = None) by (intros y I; destruct (P y I) as (? & ? & _); auto).
  assert (MA : sAllOf m = None) by (refine (merge_noAllOf _ _ _ _ _ _ HM _); intros y I; apply PF; exact I).
  pose proof HM as HM'. apply merge_flat in HM'; [|exact PF]. destruct HM' as (f' & _ & HI).
  destruct (intoAll_notOnly _ _ _ _ _ _ HI P eq_refl eq_refl eq_refl eq_refl) as (MY & MO & MC & MR & MN).
  set (nots := (match sNot m with Some x => [x] | None => [] end ++ sMergedNot m)%list).
  assert (NI : forall x, In x nots <-> exists y, In y nodes /\ (sNot y = Some x \/ In x (sMergedNot y))).
  { intros x. assert (W : In x nots <-> In x (collectNots m)).
    { rewrite MergeKeep.nots_in. unfold nots. rewrite in_app_iff. destruct (sNot m) as [z|]; cbn [In]; split; intros [W|W]; auto; try discriminate; try tauto.
      - destruct W as [->|[]]; auto. - injection W as ->; auto. }
    rewrite W, MN. split.
    - intros [[]|(y & I & J)]. exists y. split; [exact I|]. apply MergeKeep.nots_in. exact J.
    - intros (y & I & J). right. exists y. split; [exact I|]. apply MergeKeep.nots_in. exact J. }
  assert (NE : nots <> []).
  { assert (X : exists x, sNot y0 = Some x \/ In x (sMergedNot y0)) by (destruct N0 as [N0|N0]; [destruct (sNot y0) as [x|]; [exists x; auto|congruence]|destruct (sMergedNot y0) as [|x r]; [congruence|exists x; right; left; reflexivity]]).
    destruct X as (x & X). intros E. assert (In x nots) as J by (apply NI; exists y0; auto). rewrite E in J. destruct J. }
  destruct (nots_attempts PE GE f m g' t t' st v st' MR MA MY MO MC NE) as [U|(m0 & g0 & k & H1 & H2 & H3 & H4)]; auto.
  - intros x I. apply NI in I. destruct I as (y & I & J). exact (Q y x I J).
  - right. exists f, s1, m, s2, nots, m0, g0, k. auto 10.
Qed.

(* ------------------------------------------------------------------ conditions in allOf branches *)
Lemma into_conditions : forall rec m n s m' s', mergeInto rec m n s = Ok (m', s') -> sIf m = None ->
  sIf m' = None /\ conditionsOf m' = (conditionsOf m ++ conditionsOf n)%list.
Proof.
  intros rec m n s m' s' H IM. fields H.
  assert (X : sIf m' = sIf m /\ sMergedIf m' = mi) by (subst m'; cbn [sIf sMergedIf]; auto).
  destruct X as (X1 & X2). clear Em. rewrite IM in X1. split; [exact X1|]. unfold conditionsOf. rewrite X1, X2, IM, Emi, !app_nil_r. unfold mergeIf. cbn [set_sMergedIf sMergedIf].
  destruct (sIf n) as [c|] eqn:En; rewrite ?map_app, ?app_nil_r, <- ?app_assoc; [|reflexivity]. unfold newIf. cbn [map ifIf ifThen ifElse]. rewrite En. reflexivity.
Qed.
Lemma intoAll_conditions : forall rec nodes m s m' s', intoAll rec m nodes s = Ok (m', s') -> sIf m = None ->
  conditionsOf m' = (conditionsOf m ++ List.concat (map conditionsOf nodes))%list.
Proof.
  intros rec. induction nodes as [|n r IH]; cbn [intoAll]; intros m s m' s' H IM.
  - apply pret_ok in H. destruct H; subst. cbn. now rewrite app_nil_r.
  - apply pbind_ok in H. destruct H as (m1 & s1 & H1 & H). destruct (into_conditions _ _ _ _ _ _ H1 IM) as [I1 E1].
    rewrite (IH _ _ _ _ H I1), E1. cbn [map List.concat]. now rewrite app_assoc.
Qed.
Lemma allOf_ifs : forall PE GE fuel n subs nodes g s s' st v st', sRef n = None -> sConstraints n = None -> sAllOf n = Some subs ->
  nodes = (subs ++ [set_sAllOf None n])%list -> (forall y, In y nodes -> notOnly y /\ sNot y = None /\ sMergedNot y = []) ->
  List.concat (map conditionsOf nodes) <> [] ->
  parseNode PE fuel n s = Ok (Good g, s') -> yields GE g st v st' ->
  emitted EvUnchecked st st' \/ reports s s' "if" \/
  exists f s1 m s2 g0 cs k, merge PE f nodes s1 = Ok (m, s2) /\ accepted PE (withoutIf m) g0 /\
    Forall2 (conditionMade PE (withoutIf m)) (List.concat (map conditionsOf nodes)) cs /\
    granted GE (oMaximumIfAttempts (eOpts GE)) st st' k /\ tries (yields GE g0) (byConditions GE cs) ifFailure k st v st'.
Proof.
  intros PE GE fuel n subs nodes g s s' st v st' R C A EN P NE HP HY.
  destruct (allOf_values _ _ _ _ _ _ _ R C A HP) as (f & m & s1 & s2 & t & g' & t' & HM & HT & RP & EQ). rewrite <- EN in HM. apply EQ in HY. clear EQ HP.
  assert (PF : forall y, In y nodes -> sRef y = None /\ sAllOf y = None) by (intros y I; destruct (P y I) as ((? & ? & _) & _); auto).
  assert (MA : sAllOf m = None) by (refine (merge_noAllOf _ _ _ _ _ _ HM _); intros y I; apply PF; exact I).
  pose proof HM as HM'. apply merge_flat in HM'; [|exact PF]. destruct HM' as (f' & _ & HI).
  destruct (intoAll_notOnly _ _ _ _ _ _ HI (fun y I => proj1 (P y I)) eq_refl eq_refl eq_refl eq_refl) as (MY & MO & MC & MR & MN).
  pose proof (intoAll_conditions _ _ _ _ _ _ HI eq_refl) as EC. cbn [app conditionsOf] in EC. change (conditionsOf emptyNode) with (@nil (option schemaNode * (option schemaNode * option schemaNode))) in EC. cbn [app] in EC.
  assert (N0 : forall x, ~ (sNot m = Some x \/ In x (sMergedNot m))).
  { intros x X. apply MergeKeep.nots_in in X. apply MN in X. destruct X as [[]|(y & I & J)]. destruct (P y I) as (_ & K1 & K2).
    apply MergeKeep.nots_in in J. rewrite K1, K2 in J. destruct J as [J|[]]. discriminate J. }
  assert (N1 : sNot m = None) by (destruct (sNot m) as [x|]; [elim (N0 x); auto|reflexivity]).
  assert (N2 : sMergedNot m = []) by (destruct (sMergedNot m) as [|x r]; [reflexivity|elim (N0 x); right; left; reflexivity]).
  rewrite <- EC in NE |- *.
  destruct (ifs_attempts PE GE m f g' t t' st v st' MR MA MY MO N1 N2 MC NE HT HY) as [U|[U|(g0 & cs & k & H1 & H2 & H3 & H4)]]; [auto|right; left; auto|].
  right. right. exists f, s1, m, s2, g0, cs, k. auto 10.
Qed.
