(* Repeated attempts with several negations *)
From Coq Require Import ZArith List String Ascii Bool Lia.
From Verif Require Import Base Float64 Json Schema Util Rand Options Number Gen GenFacts GenInv GenValues.
From Verif Require Import PState RefPath Merge NotMerge Parse PFacts ParseKeep SpecSchema SpecParse MergeFlat SpecRun ParseShape NotProps ValueProps ConstrProps SpecTries.
From Verif Require Import Tries NotRest Shuffle.
From Coq Require Import Permutation.
Import ListNotations.
Open Scope string_scope.
Open Scope Z_scope.

Lemma partition_all : forall PE f l i s singles doubles s', (forall x, In x l -> plainNot x) ->
  partitionNots (merge PE f) i l s = Ok ((singles, doubles), s') ->
  doubles = [] /\ Forall2 (fun x x1 => sameKeys x1 x /\ normal x1 /\ exists ta tb, merge PE f [emptyNode; x] ta = Ok (x1, tb)) l singles.
Proof.
  intros PE f. induction l as [|x l IH]; intros i s singles doubles s' HP H; cbn [partitionNots] in H.
  - apply pret_ok in H. destruct H as [H _]. apply pair_equal_spec in H. destruct H as [-> ->]. split; [reflexivity|constructor].
  - destruct (HP x (or_introl eq_refl)) as (XR & XA & XN & XM).
    apply pbind_ok in H. destruct H as (u & t1 & _ & H). apply pbind_ok in H. destruct H as (x1 & t2 & T2 & H).
    assert (X1 : sameKeys x1 x) by (eapply merge_after_empty; [exact XR|exact XA|exact T2]).
    assert (O1 : normal x1) by (eapply merge_normal; [|exact T2]; intros z [<-|[<-|[]]]; auto).
    assert (N1 : sNot x1 = None).
    { pose proof (skNots _ _ X1) as K. unfold collectNots in K. rewrite XN, XM in K. cbn [app] in K. apply app_eq_nil in K. destruct K as [K _].
      destruct (sNot x1); [discriminate|reflexivity]. }
    rewrite N1 in H. apply pbind_ok in H. destruct H as (u2 & t3 & _ & H). apply pbind_ok in H. destruct H as ([p q] & t4 & T4 & H).
    apply pret_ok in H. destruct H as [H _]. apply pair_equal_spec in H. destruct H as [-> ->]. cbn [fst snd] in *.
    destruct (IH _ _ _ _ _ (fun y I => HP y (or_intror I)) T4) as (D & P). split; [exact D|]. constructor; [|exact P].
    split; [exact X1|]. split; [exact O1|]. exists t1, t2. exact T2.
Qed.

(* everything collected belongs to one of the schemas *)
Definition fromSome (xs : list schemaNode) (c : ccoll) : Prop :=
  (forall p, In p (ccRegex c) -> exists x, In x xs /\ sPattern x = Some p) /\
  (forall f, In f (ccFormat c) -> exists x, In x xs /\ sFormat x = Some f) /\
  (forall e, In e (ccValues c) -> exists x, In x xs /\ exists w, e = marshal w /\ (sConst x = Some w \/ exists l, sEnum x = Some l /\ In w l)) /\
  (forall k, In k (ccProps c) -> exists x, In x xs /\ In k (get_or (sRequired x) [])).
Lemma nots_only : forall E f xs all n c s m c' s', incl xs all -> fromSome all c -> applyNots E f n c xs s = Ok ((m, c'), s') ->
  fromSome all c' /\ takenAway E f n xs m.
Proof.
  intros E f. induction xs as [|x r IH]; intros all n c s m c' s' IN FS H; cbn [applyNots] in H.
  - apply pret_ok in H. destruct H as [H _]. apply pair_equal_spec in H. destruct H as [-> ->]. split; [exact FS|constructor].
  - apply pbind_ok in H. destruct H as ([m1 c1] & s1 & H1 & H). cbn [fst snd] in H.
    pose proof (notMerge_only _ _ _ _ _ _ _ _ H1) as (O1 & O2 & O3 & O4).
    assert (IX : In x all) by (apply IN; left; reflexivity).
    assert (FS' : fromSome all (mergeColl c c1)).
    { destruct FS as (F1 & F2 & F3 & F4). unfold mergeColl. split; [|split; [|split]]; cbn [ccRegex ccFormat ccValues ccProps]; intros y Y.
      - apply addKeys_only in Y. destruct Y as [Y|Y]; [auto|]. destruct (O1 _ Y) as [[]|Q]. exists x. auto.
      - apply addKeys_only in Y. destruct Y as [Y|Y]; [auto|]. destruct (O2 _ Y) as [[]|Q]. exists x. auto.
      - apply addKeys_only in Y. destruct Y as [Y|Y]; [auto|]. destruct (O3 _ Y) as [[]|Q]. exists x. auto.
      - apply in_app_or in Y. destruct Y as [Y|Y]; [auto|]. destruct (O4 _ Y) as [[]|Q]. exists x. auto. }
    destruct (IH all m1 _ _ _ _ _ (fun y Y => IN y (or_intror Y)) FS' H) as [A B]. split; [exact A|]. econstructor; [exact H1|exact B].
Qed.
(* what a collection refuses, one of its entries refuses alone *)
Lemma refused_single : forall GE xs c v, fromSome xs c -> multiPassed GE c v = false ->
  exists x c1, In x xs /\ onlyFrom x emptyColl c1 /\ multiPassed GE (mergeColl emptyColl c1) v = false.
Proof.
  intros GE xs c v (F1 & F2 & F3 & F4) H. unfold multiPassed in H.
  apply andb_false_iff in H. destruct H as [H|H]; [apply andb_false_iff in H; destruct H as [H|H]; [apply andb_false_iff in H; destruct H as [H|H]|]|].
  - assert (X : existsb (fun p => isStrMatching GE p v) (ccRegex c) = true).
    { clear -H. induction (ccRegex c) as [|p l IH]; [discriminate|]. cbn [forallb existsb] in *. destruct (isStrMatching GE p v); auto. }
    apply existsb_exists in X. destruct X as (p & I & M). destruct (F1 p I) as (x & IX & E). exists x, (mkCC [p] [] [] []). split; [exact IX|]. split.
    + split; [|split; [|split]]; cbn; try tauto. intros q [<-|[]]. auto.
    + unfold multiPassed, mergeColl. cbn. rewrite M. reflexivity.
  - assert (X : existsb (fun p => eIsFormat GE p v) (ccFormat c) = true).
    { clear -H. induction (ccFormat c) as [|p l IH]; [discriminate|]. cbn [forallb existsb] in *. destruct (eIsFormat GE p v); auto. }
    apply existsb_exists in X. destruct X as (p & I & M). destruct (F2 p I) as (x & IX & E). exists x, (mkCC [] [p] [] []). split; [exact IX|]. split.
    + split; [|split; [|split]]; cbn; try tauto. intros q [<-|[]]. auto.
    + unfold multiPassed, mergeColl. cbn. rewrite M. reflexivity.
  - apply negb_false_iff in H. apply existsb_exists in H. destruct H as (e & I & M). destruct (F3 e I) as (x & IX & E). exists x, (mkCC [] [] [e] []). split; [exact IX|]. split.
    + split; [|split; [|split]]; cbn; try tauto. intros q [<-|[]]. auto.
    + unfold multiPassed, mergeColl. cbn. rewrite M. reflexivity.
  - assert (X : existsb (fun p => hasProperty p v) (ccProps c) = true).
    { clear -H. induction (ccProps c) as [|p l IH]; [discriminate|]. cbn [forallb existsb] in *. destruct (hasProperty p v); auto. }
    apply existsb_exists in X. destruct X as (p & I & M). destruct (F4 p I) as (x & IX & E). exists x, (mkCC [] [] [] [p]). split; [exact IX|]. split.
    + split; [|split; [|split]]; cbn; try tauto. intros q [<-|[]]. auto.
    + unfold multiPassed, mergeColl. cbn. rewrite M. reflexivity.
Qed.
Lemma forall2_right : forall A B (R : A -> B -> Prop) l l' y, Forall2 R l l' -> In y l' -> exists x, In x l /\ R x y.
Proof. intros A B R l l' y F. induction F as [|a b l l' H F IH]; intros []; [subst; exists a; split; [left; reflexivity|exact H]|]. destruct (IH H0) as (x & I & K). exists x. split; [right; exact I|exact K]. Qed.

Lemma nots_attempts : forall PE GE fuel n g s s' st v st', sRef n = None -> sAllOf n = None -> sAnyOf n = None -> sOneOf n = None ->
  sConstraints n = None -> collectNots n <> [] -> (forall x, In x (collectNots n) -> plainNot x) ->
  parseNode PE fuel n s = Ok (Good g, s') -> yields GE g st v st' ->
  emitted EvUnchecked st st' \/
  exists m g0 k, remainders PE n (collectNots n) m /\ accepted PE m g0 /\ granted GE (oMaximumUniqueGeneratorAttempts (eOpts GE)) st st' k /\
    tries (yields GE g0) (judged (fun w => True) (fun w => exists x, In x (collectNots n) /\ asksFor GE x w)) multiFailure k st v st'.
Proof.
  intros PE GE fuel n g s s' st v st' R A AO OO C NE XP HP HY. apply parseNode_errs in HP; auto.
  destruct HP as (f & s1 & s2 & H & _).
  assert (PT : exists g0 m c xs1, g = GConstrained g0 [CMulti c] /\ remainders PE n (collectNots n) m /\ accepted PE m g0 /\
    Forall2 (fun x x1 => sameKeys x1 x /\ normal x1) (collectNots n) xs1 /\ fromSome xs1 c).
  { pose proof (step_supported _ _ _ _ _ _ H) as HU.
    assert (B : is_some (sNot n) || match sMergedNot n with [] => false | _ => true end = true).
    { unfold collectNots in NE. destruct (sNot n); [reflexivity|]. cbn [is_some orb]. destruct (sMergedNot n); [elim NE; reflexivity|reflexivity]. }
    unfold stepF, schemaStep in H. rewrite HU, R, A, OO, AO, B in H. unfold parseNot in H. unfold remainders.
    revert H. generalize (set_sNot None (set_sMergedNot [] n)). intros n' H.
    apply pbind_ok in H. destruct H as ([singles doubles] & s3 & H0 & H).
    destruct (partition_all _ _ _ _ _ _ _ _ XP H0) as (-> & P).
    apply pbind_ok in H. destruct H as (n0 & t5 & T5 & H). apply pret_ok in T5. destruct T5 as [-> ->].
    destruct singles as [|z singles]; [inversion P as [Q|]; elim NE; symmetry; exact Q|].
    apply pbind_ok in H. destruct H as (n1 & t6 & T6 & H).
    apply pbind_ok in H. destruct H as ([m c] & t7 & T7 & H).
    apply pbind_ok in H. destruct H as (r & t8 & T8 & H). destruct r as [g0|w]; [|apply bad_ok in H; tauto].
    apply good_ok in H. destruct H as [-> ->].
    assert (FE : fromSome (z :: singles) emptyColl) by (split; [|split; [|split]]; intros q []).
    destruct (nots_only _ _ _ (z :: singles) _ _ _ _ _ _ (fun q I => I) FE T7) as [FS TA].
    exists g0, m, c, (z :: singles). split; [reflexivity|].
    split. { exists f, (z :: singles), n1, s3, t6. split; [|split; [exact T6|exact TA]]. clear -P. induction P as [|a b l l' (K1 & K2 & K3) P IH]; constructor; auto. }
    split; [exists f, t7, t8; exact T8|]. split; [|exact FS]. clear -P. induction P as [|a b l l' (K1 & K2 & K3) P IH]; constructor; auto. }
  destruct PT as (g0 & m & c & xs1 & -> & RM & HA & F & FS). clear H.
  apply yields_step in HY. destruct HY as (k & HY). cbn [genStep] in HY.
  apply constrained_inv in HY. destruct HY as (v0 & t0 & G0 & A0 & HY).
  destruct HY as [(-> & E & A1)|(t1 & A1 & HY)]; [auto|right].
  cbn [applyConstr] in HY. apply bindM_ok in HY. destruct HY as (b & s0 & H & HY). apply budget_granted in H. destruct H as [-> ->].
  assert (A2 : after t1 st').
  { apply (fwd_of_inv _ (multiTry GE (generate GE k) (Z.to_nat (scaledRetryBudget (eOpts GE) (gCx t1) (oMaximumUniqueGeneratorAttempts (eOpts GE)))) c g0 v0)) with (2 := HY). intros.
    apply inv_multiTry; auto using stable_after; intros; try (apply invG; auto; apply fwd_generate). }
  exists m, g0. eexists. split; [exact RM|]. split; [exact HA|].
  split; [eapply granted_at; [|exact A2]; eapply after_trans; eauto|].
  eapply (multi_tries GE k g0); [| |apply after_refl| |exact A0|exact A1|exact HY].
  - intros p w q Hg. exists k. exact Hg.
  - intros w. destruct (multiPassed GE c w) eqn:M; [exact Logic.I|].
    destruct (refused_single _ _ _ _ FS M) as (x1 & c1 & I1 & OC & M1). destruct (forall2_right _ _ _ _ _ _ F I1) as (x & I & KX & NX).
    exists x. split; [exact I|]. eapply refused_asks; eauto.
  - exists k. exact G0.
Qed.

(* ------------------------------------------------------------------ several conditions *)
Lemma compileIfs_made : forall PE f n l i s cs s', compileIfs PE (parseF PE f false) (merge PE f) i n l s = Ok (cs, s') ->
  reports s s' "if" \/ Forall2 (conditionMade PE n) (map (fun i => (ifIf i, (ifThen i, ifElse i))) l) cs.
Proof.
  intros PE f n. induction l as [|x l IH]; intros i s cs s' H; cbn [compileIfs] in H.
  - apply pret_ok in H. destruct H as [-> _]. right. constructor.
  - apply pbind_ok in H. destruct H as (k & s1 & H1 & H).
    pose proof (st_compileIf PE (parseF PE f false) (merge PE f) (st_parseF PE _ _) (st_merge PE _) _ _ _ _ _ _ H1) as K1. destruct k as [k|w].
    + apply pbind_ok in H. destruct H as (ks & s2 & H2 & H). apply pret_ok in H. destruct H as [-> ->].
      destruct (IH _ _ _ _ H2) as [R|F]; [left; eapply reports_before; eauto|right]. cbn [map]. constructor; [|exact F].
      apply compileIf_shape in H1. destruct H1 as (c & IC & CA & B1 & B2 & _). exists c, s, (pPath s ++ "/" ++ "/if/" ++ itoa i). auto.
    + apply pbind_ok in H. destruct H as (u & s2 & H2 & H). left. eapply reports_before; [exact K1|]. eapply reports_after; [eapply reports_sub; exact H2|].
      exact (st_compileIfs PE (parseF PE f false) (merge PE f) (st_parseF PE _ _) (st_merge PE _) _ _ _ _ _ _ H).
Qed.
Lemma pass_through : forall GE fuel l idx v s r s', ifPass GE (generate GE fuel) idx l v s = Ok (r, s') -> (forall i, In i idx -> (i < List.length l)%nat) ->
  exists order, map Some order = map (nth_error l) idx /\ throughAll GE order v r s s'.
Proof.
  intros GE fuel l. induction idx as [|i idx IH]; intros v s r s' H IN; cbn [ifPass] in H.
  - apply ret_ok in H. destruct H as [-> ->]. exists []. split; [reflexivity|]. constructor. apply after_refl.
  - destruct (nth_error l i) as [[c [th el]]|] eqn:NE. 2:{ apply nth_error_None in NE. specialize (IN i (or_introl eq_refl)). lia. }
    apply bindM_ok in H. destruct H as (w & s1 & H1 & H). apply attempt_by in H1. destruct w as [w|].
    + destruct (IH _ _ _ _ H (fun j J => IN j (or_intror J))) as (order & E & T). exists ((c, (th, el)) :: order). cbn [map]. rewrite NE, E. split; [reflexivity|].
      eapply through_next; eauto.
    + apply ret_ok in H. destruct H as [-> ->].
      assert (Q : exists order, map Some order = map (nth_error l) idx).
      { clear -IN. induction idx as [|j idx IH]; [exists []; reflexivity|]. destruct IH as (o & E); [intros k [K|K]; [apply IN; left; exact K|apply IN; right; right; exact K]|].
        destruct (nth_error l j) as [y|] eqn:NE; [exists (y :: o); cbn [map]; rewrite NE, E; reflexivity|].
        apply nth_error_None in NE. specialize (IN j (or_intror (or_introl eq_refl))). lia. }
      destruct Q as (o & E). exists ((c, (th, el)) :: o). cbn [map]. rewrite NE, E. split; [reflexivity|]. apply through_refused. exact H1.
Qed.
Lemma some_perm : forall A (o l : list A) idx, map Some o = map (nth_error l) idx -> Permutation idx (seq 0 (List.length l)) -> Permutation o l.
Proof.
  intros A o l idx E P.
  assert (Q : Permutation (map Some o) (map Some l)).
  { rewrite E. eapply perm_trans; [apply Permutation_map; exact P|].
    assert (M : map (nth_error l) (seq 0 (List.length l)) = map Some l).
    { clear. induction l as [|a l IH]; [reflexivity|]. cbn [List.length seq map nth_error]. f_equal. rewrite <- seq_shift, map_map. exact IH. }
    rewrite M. apply Permutation_refl. }
  apply Permutation_map_inv in Q. destruct Q as (l' & E' & P'). assert (o = l').
  { clear -E'. revert l' E'. induction o as [|a o IH]; intros [|b l'] E; try discriminate; [reflexivity|]. injection E as -> E. now rewrite (IH _ E). }
  subst. now apply Permutation_sym.
Qed.
Lemma through_widen : forall GE cs v r a b a', throughAll GE cs v r a b -> after a' a -> throughAll GE cs v r a' b.
Proof.
  intros GE cs v r a b a' H A. destruct H as [v a b H|c th el q v a b H|c th el q v w x a b d H T].
  - apply through_end. eapply after_trans; eauto.
  - apply through_refused. eapply by_widen; eauto.
  - eapply through_next; [|exact T]. eapply by_widen; eauto.
Qed.
Lemma ifs_tries : forall GE fuel g (candidate : gst -> json -> gst -> Prop) l, (forall s v s', generate GE fuel g s = Ok (v, s') -> candidate s v s') ->
  forall n st a v b s w s', after st a -> candidate a v b -> after a b -> after b s ->
  ifTry GE (generate GE fuel) n l g v s = Ok (w, s') -> tries candidate (byConditions GE l) ifFailure n st w s'.
Proof.
  intros GE fuel g candidate l made. induction n; intros st a v b s w s' A1 HC A0 A2 H; cbn [ifTry] in H.
  - apply bindM_ok in H. destruct H as (u & s0 & H0 & H). pose proof (fwd_emit EvIfFail s _ _ H0) as AE. apply ret_ok in H. destruct H as [-> ->].
    apply tries_failed. eapply after_trans; [exact A1|]. eapply after_trans; [exact A0|]. eapply after_trans; eauto.
  - apply bindM_ok in H. destruct H as (u & s0 & H0 & H). pose proof (fwd_tick _ _ _ H0) as B1.
    apply bindM_ok in H. destruct H as (ds & s1 & H1 & H). assert (B2 : after s0 s1) by (eapply fwd_draws; exact H1).
    apply bindM_ok in H. destruct H as (r & s2 & H2 & H).
    assert (AB : after b s1) by (eapply after_trans; [exact A2|]; eapply after_trans; eauto).
    pose proof (perm_permutes (List.length l) (nthDraw ds)) as PP.
    apply pass_through in H2. 2:{ intros i I. apply (Permutation_in _ PP) in I. apply in_seq in I. lia. }
    destruct H2 as (order & E & T). apply some_perm in E; [|exact PP]. apply through_widen with (a' := b) in T; [|exact AB].
    assert (BC : byConditions GE l v r b s2) by (exists order; auto). destruct r as [r|].
    + apply ret_ok in H. destruct H as [-> ->]. eapply tries_done; [exact A1|exact HC|exact A0|exact BC].
    + apply bindM_ok in H. destruct H as (v' & s3 & H3 & H). eapply tries_next; [exact A1|exact HC|exact A0|exact BC|].
      eapply IHn; [apply after_refl|apply made; exact H3|eapply fwd_generate; exact H3|apply after_refl|exact H].
Qed.
Lemma ifs_attempts : forall PE GE n fuel g s s' st v st', sRef n = None -> sAllOf n = None -> sAnyOf n = None -> sOneOf n = None ->
  sNot n = None -> sMergedNot n = [] -> sConstraints n = None -> conditionsOf n <> [] ->
  parseNode PE fuel n s = Ok (Good g, s') -> yields GE g st v st' ->
  emitted EvUnchecked st st' \/ reports s s' "if" \/
  exists g0 cs k, accepted PE (withoutIf n) g0 /\ Forall2 (conditionMade PE (withoutIf n)) (conditionsOf n) cs /\
    granted GE (oMaximumIfAttempts (eOpts GE)) st st' k /\
    tries (yields GE g0) (byConditions GE cs) ifFailure k st v st'.
Proof.
  intros PE GE n fuel g s s' st v st' R A AO OO N MN C NE HP HY. apply parseNode_errs in HP; auto.
  destruct HP as (f & s1 & s2 & H & E1 & E2 & _ & _ & _ & _ & D1 & D2 & _).
  assert (PT : reports s1 s2 "if" \/ exists g0 cs, accepted PE (withoutIf n) g0 /\ Forall2 (conditionMade PE (withoutIf n)) (conditionsOf n) cs /\ g = GConstrained g0 [CIf cs]).
  { pose proof (step_supported _ _ _ _ _ _ H) as HU.
    assert (B : is_some (sIf n) || match sMergedIf n with [] => false | _ => true end = true).
    { unfold conditionsOf in NE. destruct (sIf n); [reflexivity|]. cbn [is_some orb]. destruct (sMergedIf n); [elim NE; reflexivity|reflexivity]. }
    unfold stepF, schemaStep in H. rewrite HU, R, A, OO, AO, N, MN, B in H. cbn [is_some orb] in H.
    unfold parseIf in H. apply pbind_ok in H. destruct H as (a & s0 & H0 & H). apply pget_ok in H0. destruct H0 as [-> ->].
    set (l := (sMergedIf n ++ match sIf n with Some _ => [newIf n (pPath s1)] | None => [] end)%list) in H.
    assert (ML : map (fun i => (ifIf i, (ifThen i, ifElse i))) l = conditionsOf n).
    { unfold l, conditionsOf, newIf. rewrite map_app. f_equal. destruct (sIf n); reflexivity. }
    rewrite <- ML in *. clearbody l. clear ML.
    change (set_sIf None (set_sThen None (set_sElse None (set_sMergedIf [] n)))) with (withoutIf n) in H.
    pose proof (withoutIf_constraints n) as CW. rewrite C in CW. revert H CW. generalize (withoutIf n). intros m H CW.
    apply pbind_ok in H. destruct H as (r & s0 & H0 & H). destruct r as [g0|w]; [|apply bad_ok in H; tauto].
    destruct f as [|f]; [discriminate|].
    assert (HA : accepted PE m g0) by (eapply schema_accepted; eauto).
    pose proof (st_parseF PE (S f) true _ _ _ _ H0) as K0.
    destruct l as [|i0 l]; [elim NE; reflexivity|].
    apply pbind_ok in H. destruct H as (cs & s3 & H1 & H). apply compileIfs_made in H1. destruct H1 as [RP|F].
    - left. eapply reports_before; [exact K0|]. destruct cs as [|c cs].
      + apply pbind_ok in H. destruct H as (u & s4 & H2 & H). apply good_ok in H. destruct H as [_ ->]. eapply reports_after; [exact RP|]. exact (st_addErrSub PE _ _ _ _ _ H2).
      + apply good_ok in H. destruct H as [_ ->]. exact RP.
    - destruct cs as [|c cs]; [inversion F|]. apply good_ok in H. destruct H as [-> ->]. right. exists g0, (c :: cs). auto. }
  destruct PT as [RP|(g0 & cs & HA & F & ->)]; [right; left; eapply reports_errs; [symmetry; exact E1|exact E2|exact RP]|]. clear H.
  apply yields_step in HY. destruct HY as (k & HY). cbn [genStep] in HY.
  apply constrained_inv in HY. destruct HY as (v0 & t0 & G0 & A0 & HY).
  destruct HY as [(-> & E & A1)|(t1 & A1 & HY)]; [auto|right; right].
  cbn [applyConstr] in HY. apply bindM_ok in HY. destruct HY as (b & s0 & H & HY). apply budget_granted in H. destruct H as [-> ->].
  assert (A2 : after t1 st').
  { apply (fwd_of_inv _ (ifTry GE (generate GE k) (Z.to_nat (scaledRetryBudget (eOpts GE) (gCx t1) (oMaximumIfAttempts (eOpts GE)))) cs g0 v0)) with (2 := HY). intros.
    apply inv_ifTry; auto using stable_after; intros; try (apply invG; auto; apply fwd_generate). }
  exists g0, cs. eexists. split; [exact HA|]. split; [exact F|].
  split; [eapply granted_at; [|exact A2]; eapply after_trans; eauto|].
  eapply (ifs_tries GE k g0); [|apply after_refl| |exact A0|exact A1|exact HY].
  - intros p w q Hg. exists k. exact Hg.
  - exists k. exact G0.
Qed.
