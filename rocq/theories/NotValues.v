(* What a negated schema leaves for generation: the exclusions collected by notMerge and checked on
   every generated value. *)
From Coq Require Import ZArith List String Bool Lia.
From Verif Require Import Base Float64 Json Schema Util Rand Options Number Gen GenFacts GenInv GenValues.
From Verif Require Import PState RefPath Merge NotMerge Parse PFacts ParseKeep SpecSchema SpecParse SpecRun MergeProps NotProps ParseShape ValueProps ConstrProps MergeFlat.
Import ListNotations.
Open Scope string_scope.
Open Scope Z_scope.

Lemma addKey_In : forall A (eqb : A -> A -> bool) l x y, (forall a b, eqb a b = true -> a = b) ->
  (In y l \/ y = x) -> In y (addKey eqb l x).
Proof.
  intros A eqb l x y HE [H| ->]; unfold addKey; destruct (existsb (eqb x) l) eqn:X; auto using in_or_app.
  - apply existsb_exists in X. destruct X as (z & I & Z). apply HE in Z. subst; auto.
  - apply in_or_app. right. left. reflexivity.
Qed.
Lemma addKeys_In : forall A (eqb : A -> A -> bool), (forall a b, eqb a b = true -> a = b) ->
  forall xs l y, (In y l \/ In y xs) -> In y (addKeys eqb l xs).
Proof.
  intros A eqb HE. induction xs as [|x xs IH]; intros l y H; unfold addKeys; cbn [fold_left].
  - destruct H as [H|[]]; auto.
  - apply IH. destruct H as [H|[->|H]]; auto; left; apply addKey_In; auto.
Qed.
Lemma str_eq : forall a b, String.eqb a b = true -> a = b. Proof. intros a b. apply String.eqb_eq. Qed.
Lemma oenc_eq : forall a b, oenc_eqb a b = true -> a = b. Proof. intros a b. apply oenc_eqb_eq. Qed.

Definition within (a b : ccoll) : Prop :=
  (forall p, In p (ccRegex a) -> In p (ccRegex b)) /\ (forall p, In p (ccFormat a) -> In p (ccFormat b)) /\
  (forall p, In p (ccValues a) -> In p (ccValues b)) /\ (forall p, In p (ccProps a) -> In p (ccProps b)).
Lemma within_refl : forall a, within a a. Proof. intros a. repeat split; auto. Qed.
Lemma within_trans : forall a b c, within a b -> within b c -> within a c.
Proof. intros a b c (A1 & A2 & A3 & A4) (B1 & B2 & B3 & B4). repeat split; auto. Qed.
Lemma within_merge : forall a b, within b (mergeColl a b).
Proof.
  intros a b. repeat split; cbn; intros p H.
  - apply addKeys_In; auto using str_eq.
  - apply addKeys_In; auto using str_eq.
  - apply addKeys_In; auto using oenc_eq.
  - apply in_or_app. auto.
Qed.
Lemma within_values : forall l c, within c (addValues l c).
Proof. intros l c. repeat split; cbn; auto. intros p H. apply addKeys_In; auto using oenc_eq. Qed.

(* nothing was recorded between two states *)
Definition quiet (s s' : pst) : Prop := pErrs s' = pErrs s.
Lemma quiet_mid : forall E a b c, keeps E a b -> keeps E b c -> quiet a c -> quiet a b /\ quiet b c.
Proof.
  intros E a b c K1 K2 Q. destruct (kErrs _ _ _ K1) as [l1 H1], (kErrs _ _ _ K2) as [l2 H2]. unfold quiet in *.
  rewrite H2, H1 in Q. assert (L : List.length (l2 ++ l1 ++ pErrs a) = List.length (pErrs a)) by (rewrite Q; auto).
  rewrite !app_length in L. destruct l2; [|simpl in L; lia]. destruct l1; [|simpl in L; lia]. cbn [app] in *. rewrite H1, H2. auto.
Qed.
Lemma quiet_not : forall a b t, reports a b t -> quiet a b -> False.
Proof. intros a b t R Q. exact (reports_none _ _ _ R Q). Qed.
Lemma quiet_warn : forall f s u s', warnField f s = Ok (u, s') -> quiet s s' -> False.
Proof. intros f s u s' H. apply reports_sub in H. intros. eapply quiet_not; eauto. Qed.

(* every bind of a stable computation splits a quiet run *)
Lemma quiet_bind : forall E A B (m : P A) (k : A -> P B) s b s', stable E m -> (forall a, stable E (k a)) ->
  pbind m k s = Ok (b, s') -> quiet s s' -> exists a s1, m s = Ok (a, s1) /\ k a s1 = Ok (b, s') /\ quiet s s1 /\ quiet s1 s'.
Proof.
  intros E A B m k s b s' Sm Sk H Q. apply pbind_ok in H. destruct H as (a & s1 & H1 & H2).
  exists a, s1. split; auto. split; auto. eapply quiet_mid; eauto. eapply Sk; eauto.
Qed.

Section NotColl.
Variable E : penv.
Variable rec : schemaNode -> schemaNode -> P nstate.
Hypothesis Hrec : forall n x, stable E (rec n x).

Lemma coll_string : forall st n x s m c s', notApplyString E st n x s = Ok ((m, c), s') -> quiet s s' ->
  within (snd st) c /\ (forall p, sPattern x = Some p -> In p (ccRegex c)) /\
  (forall f, sPattern x = None -> sFormat x = Some f -> In f (ccFormat c)).
Proof.
  intros [m0 c0] n x s m c s' H Q. unfold notApplyString in H.
  apply (quiet_bind E) in H; [| |  |exact Q].
  2:{ apply st_resolveBoundsInt. }
  2:{ intros a. destruct (sPattern x); [|destruct (sFormat x)]; repeat (match goal with |- stable _ (if ?b then _ else _) => destruct b end);
      try apply st_ret; apply st_bind; try apply st_warnField; intros; apply st_ret. }
  destruct H as (b & s1 & H1 & H & Q1 & Q2). cbn [snd].
  assert (W : forall fld mc, (run* warnField fld in pret mc) s1 = Ok ((m, c), s') -> False).
  { intros fld mc X. apply pbind_ok in X. destruct X as (u & s2 & X & Y). apply pret_ok in Y. destruct Y as [_ ->]. eapply quiet_warn; eauto. }
  destruct (sPattern x) as [p|].
  - destruct (String.eqb _ _); [exfalso; eapply W; eauto|].
    destruct (mem_string p (ccRegex c0) || pxGoRegexOk E p); [|exfalso; eapply W; eauto].
    apply pret_ok in H. destruct H as [H _]. apply pair_equal_spec in H. destruct H as [_ ->].
    split; [|split; [|discriminate]].
    + repeat split; cbn; auto. intros. apply addKey_In; auto using str_eq.
    + intros q E1. injection E1 as ->. cbn. apply addKey_In; auto using str_eq.
  - destruct (sFormat x) as [f|].
    + destruct (String.eqb _ _); [exfalso; eapply W; eauto|].
      destruct (mem_string f (ccFormat c0) || pxHasFormat E f); [|exfalso; eapply W; eauto].
      apply pret_ok in H. destruct H as [H _]. apply pair_equal_spec in H. destruct H as [_ ->].
      split; [|split; [discriminate|]].
      * repeat split; cbn; auto. intros. apply addKey_In; auto using str_eq.
      * intros q _ E1. injection E1 as ->. cbn. apply addKey_In; auto using str_eq.
    + apply pret_ok in H. destruct H as [H _]. apply pair_equal_spec in H. destruct H as [_ ->].
      split; [apply within_refl|]. split; discriminate.
Qed.

Lemma coll_number : forall st n x s r s', notApplyNumber st n x s = Ok (r, s') -> snd r = snd st.
Proof.
  intros [m0 c0] n x s r s' H. unfold notApplyNumber in H.
  destruct (boundsFloat _ _ _ _ _ _ _ _ _) as [[[[mn mx] amn] amx] w].
  apply pbind_ok in H. destruct H as (u & s1 & _ & H).
  assert (W : forall fld (mc : nstate) (b : pst) r0, (run* warnField fld in pret mc) b = Ok (r0, s') -> r0 = mc).
  { clear. intros fld mc b r0 X. apply pbind_ok in X. destruct X as (u' & s2 & _ & Y). apply pret_ok in Y. tauto. }
  repeat match type of H with (if ?b then _ else _) _ = _ => destruct b end;
    first [apply W in H; rewrite H; reflexivity | apply pret_ok in H; destruct H as [H _]; rewrite H; reflexivity].
Qed.

Lemma coll_enum : forall st n x s m c s', notApplyEnum st n x s = Ok ((m, c), s') ->
  within (snd st) c /\ (sEnum n = None -> sConst n = None -> forall l w, sEnum x = Some l -> In w l -> In (marshal w) (ccValues c)).
Proof.
  intros [m0 c0] n x s m c s' H. unfold notApplyEnum in H. cbn [snd].
  assert (W : forall fld (mc : nstate) (b : pst) r0, (run* warnField fld in pret mc) b = Ok (r0, s') -> r0 = mc).
  { clear. intros fld mc b r0 X. apply pbind_ok in X. destruct X as (u' & s2 & _ & Y). apply pret_ok in Y. tauto. }
  assert (RS : forall l, (match l with [] => run* warnField "not/enum" in pret (m0, c0) | j :: l0 => pret (set_sEnum (Some (map reread (j :: l0))) m0, c0) end) s
     = Ok ((m, c), s') -> c = c0).
  { intros [|a l] X; [apply W in X|apply pret_ok in X; destruct X as [X _]]; apply pair_equal_spec in X; tauto. }
  destruct (sEnum n) as [en|] eqn:EN, (sEnum x) as [ex|] eqn:EX; cbn [get_or] in H.
  - split; [|discriminate]. destruct en as [|a en], ex as [|b ex]; cbn [get_or] in H.
    + apply RS in H. subst; apply within_refl.
    + destruct (sConst n) as [v|].
      * destruct (mem_enc _ _); [|apply RS in H; subst; apply within_refl]. apply W in H. apply pair_equal_spec in H. destruct H as [_ ->]. apply within_refl.
      * apply pret_ok in H. destruct H as [H _]. apply pair_equal_spec in H. destruct H as [_ ->]. apply within_values.
    + apply RS in H. subst; apply within_refl.
    + apply RS in H. subst; apply within_refl.
  - split; [|discriminate]. destruct en; apply RS in H; subst; apply within_refl.
  - destruct ex as [|b ex].
    + apply RS in H. subst. split; [apply within_refl|]. intros _ _ l w E1 I. injection E1 as <-. destruct I.
    + destruct (sConst n) as [v|].
      * split; [|discriminate]. destruct (mem_enc _ _); [|apply RS in H; subst; apply within_refl].
        apply W in H. apply pair_equal_spec in H. destruct H as [_ ->]. apply within_refl.
      * apply pret_ok in H. destruct H as [H _]. apply pair_equal_spec in H. destruct H as [_ ->]. split; [apply within_values|].
        intros _ _ l w E1 I. injection E1 as <-. cbn [addValues ccValues]. apply addKeys_In; [apply oenc_eq|]. right. apply in_map; auto.
  - apply pret_ok in H. destruct H as [H _]. apply pair_equal_spec in H. destruct H as [_ ->]. split; [apply within_refl|]. discriminate.
Qed.

Lemma coll_const : forall st n x s m c s', notApplyConst st n x s = Ok ((m, c), s') -> quiet s s' ->
  within (snd st) c /\ (forall w, sConst x = Some w -> In (marshal w) (ccValues c)).
Proof.
  intros [m0 c0] n x s m c s' H Q. unfold notApplyConst in H. cbn [snd]. destruct (sConst x) as [w|].
  - match type of H with (if ?b then _ else _) _ = _ => destruct b end.
    + apply pbind_ok in H. destruct H as (u & s2 & X & Y). apply pret_ok in Y. destruct Y as [_ ->]. exfalso. eapply quiet_warn; eauto.
    + apply pret_ok in H. destruct H as [H _]. apply pair_equal_spec in H. destruct H as [_ ->]. split; [apply within_values|].
      intros w' E1. injection E1 as <-. cbn [addValues ccValues]. apply addKeys_In; [apply oenc_eq|]. right. left. auto.
  - apply pret_ok in H. destruct H as [H _]. apply pair_equal_spec in H. destruct H as [_ ->]. split; [apply within_refl|]. discriminate.
Qed.

Lemma coll_array : forall st n x s r s', notApplyArray rec st n x s = Ok (r, s') -> snd r = snd st.
Proof.
  intros [m0 c0] n x s r s' H. unfold notApplyArray in H.
  repeat match type of H with pbind _ _ _ = _ => apply pbind_ok in H; destruct H as (? & ? & _ & H) end.
  apply pret_ok in H. destruct H as [-> _]. reflexivity.
Qed.

Lemma coll_object : forall st n x s m c s', notApplyObject rec st n x s = Ok ((m, c), s') ->
  within (snd st) c /\ (forall k, In k (get_or (sRequired x) []) -> ~ In k (get_or (sRequired n) []) -> In k (ccProps c)).
Proof.
  intros [m0 c0] n x s m c s' H. unfold notApplyObject in H. cbn [snd].
  repeat match type of H with pbind _ _ _ = _ => apply pbind_ok in H; destruct H as (? & ? & _ & H) end.
  apply pret_ok in H. destruct H as [H _]. apply pair_equal_spec in H. destruct H as [_ H].
  set (gone := filter (fun p => negb (mem_string p (get_or (sRequired n) []))) (get_or (sRequired x) [])) in *.
  assert (P : forall k, In k gone -> In k (ccProps c)).
  { intros k I. subst c. destruct gone; [destruct I|]. cbn [addProps ccProps]. apply in_or_app; auto. }
  split.
  - subst c. destruct gone; [apply within_refl|]. repeat split; cbn; auto. intros. apply in_or_app; auto.
  - intros k I N. apply P. subst gone. apply filter_In. split; auto. destruct (mem_string k (get_or (sRequired n) [])) eqn:M; auto.
    apply mem_string_In in M. tauto.
Qed.
End NotColl.

(* the exclusions of a negated node x that were not reported as unsupported *)
Definition excludes (n x : schemaNode) (c : ccoll) : Prop :=
  (forall p, sPattern x = Some p -> In p (ccRegex c)) /\
  (forall f, sPattern x = None -> sFormat x = Some f -> In f (ccFormat c)) /\
  (sEnum n = None -> sConst n = None -> forall l w, sEnum x = Some l -> In w l -> In (marshal w) (ccValues c)) /\
  (forall w, sConst x = Some w -> In (marshal w) (ccValues c)) /\
  (forall k, In k (get_or (sRequired x) []) -> ~ In k (get_or (sRequired n) []) -> In k (ccProps c)).

Lemma notStep_excludes : forall E rec n x s m c s', (forall a b, stable E (rec a b)) ->
  notStep E rec n x s = Ok ((m, c), s') -> quiet s s' -> excludes n x c.
Proof.
  intros E rec n x s m c s' Hrec H Q. unfold notStep in H.
  apply (quiet_bind E) in H; [| apply st_notApplyType | |exact Q].
  2:{ intros [t|]; [|apply st_ret]. apply st_bind; [apply st_notApplyString|intros].
      apply st_bind; [apply st_notApplyNumber|intros]. apply st_bind; [apply st_notApplyEnum|intros].
      apply st_bind; [apply st_notApplyConst|intros]. apply st_bind; [apply st_notApplyArray; auto|intros].
      apply st_bind; [apply st_notApplyObject; auto|intros]. apply st_bind; [apply st_warnUnsupported|intros]. apply st_ret. }
  destruct H as (t & s1 & H1 & H & Q1 & Q2). destruct t as [m1|].
  2:{ unfold notApplyType in H1. destruct (resolveType n x).
      - apply pret_ok in H1. destruct H1 as [D _]. discriminate.
      - apply pbind_ok in H1. destruct H1 as (u & s2 & X & Y). apply pret_ok in Y. destruct Y as [_ ->].
        exfalso. eapply quiet_not; [|exact Q1]. eapply reports_sub. exact X. }
  clear H1.
  apply (quiet_bind E) in H; [| apply st_notApplyString | |exact Q2].
  2:{ intros. apply st_bind; [apply st_notApplyNumber|intros]. apply st_bind; [apply st_notApplyEnum|intros].
      apply st_bind; [apply st_notApplyConst|intros]. apply st_bind; [apply st_notApplyArray; auto|intros].
      apply st_bind; [apply st_notApplyObject; auto|intros]. apply st_bind; [apply st_warnUnsupported|intros]. apply st_ret. }
  destruct H as ([m2 c2] & s2 & H2 & H & Q3 & Q4).
  apply (quiet_bind E) in H; [| apply st_notApplyNumber | |exact Q4].
  2:{ intros. apply st_bind; [apply st_notApplyEnum|intros].
      apply st_bind; [apply st_notApplyConst|intros]. apply st_bind; [apply st_notApplyArray; auto|intros].
      apply st_bind; [apply st_notApplyObject; auto|intros]. apply st_bind; [apply st_warnUnsupported|intros]. apply st_ret. }
  destruct H as ([m3 c3] & s3 & H3 & H & _ & Q5).
  apply (quiet_bind E) in H; [| apply st_notApplyEnum | |exact Q5].
  2:{ intros. apply st_bind; [apply st_notApplyConst|intros]. apply st_bind; [apply st_notApplyArray; auto|intros].
      apply st_bind; [apply st_notApplyObject; auto|intros]. apply st_bind; [apply st_warnUnsupported|intros]. apply st_ret. }
  destruct H as ([m4 c4] & s4 & H4 & H & _ & Q6).
  apply (quiet_bind E) in H; [| apply st_notApplyConst | |exact Q6].
  2:{ intros. apply st_bind; [apply st_notApplyArray; auto|intros].
      apply st_bind; [apply st_notApplyObject; auto|intros]. apply st_bind; [apply st_warnUnsupported|intros]. apply st_ret. }
  destruct H as ([m5 c5] & s5 & H5 & H & Q7 & _).
  apply pbind_ok in H. destruct H as ([m6 c6] & s6 & H6 & H).
  apply pbind_ok in H. destruct H as ([m7 c7] & s7 & H7 & H).
  apply pbind_ok in H. destruct H as (u & s8 & _ & H). apply pret_ok in H. destruct H as [H _].
  apply pair_equal_spec in H. destruct H as [_ ->]. cbn [snd].
  apply coll_string in H2; [|exact Q3]. apply coll_number in H3. apply coll_enum in H4. apply coll_const in H5; [|exact Q7].
  apply coll_array in H6. apply coll_object in H7. cbn [snd] in *. subst c3 c6.
  destruct H2 as (W2 & P2 & F2), H4 as (W4 & E4), H5 as (W5 & C5), H7 as (W7 & R7).
  destruct W4 as (w4a & w4b & w4c & w4d), W5 as (w5a & w5b & w5c & w5d), W7 as (w7a & w7b & w7c & w7d).
  split; [intros; apply w7a, w5a, w4a; auto|]. split; [intros; apply w7b, w5b, w4b; auto|].
  split; [intros; apply w7c, w5c; eapply E4; eauto|]. split; [intros; apply w7c; auto|]. auto.
Qed.
Lemma notMerge_excludes : forall E f n x s m c s', notMerge E f n x s = Ok ((m, c), s') -> quiet s s' -> excludes n x c.
Proof.
  intros E [|f] n x s m c s' H Q; [discriminate|]. cbn [notMerge] in H. eapply notStep_excludes; [|exact H|exact Q].
  intros; apply st_notMerge.
Qed.
Lemma excludes_within : forall n x c c', within c c' -> excludes n x c -> excludes n x c'.
Proof.
  intros n x c c' (W1 & W2 & W3 & W4) (A & B & C & D & F). split; [auto|]. split; [auto|]. split; [intros; eapply W3, C; eauto|]. split; auto.
Qed.

(* one negated schema: what is left of the node, and the exclusions *)
Lemma not_parts : forall PE fuel n x g s s', sRef n = None -> sAllOf n = None -> sAnyOf n = None -> sOneOf n = None ->
  sMergedNot n = [] -> sConstraints n = None -> sNot n = Some x ->
  sRef x = None -> sAllOf x = None -> sNot x = None -> sMergedNot x = [] ->
  parseNode PE fuel n s = Ok (Good g, s') -> pErrs s' = pErrs s ->
  exists g0 c n1 x1, g = GConstrained g0 [CMulti c] /\ excludes n1 x1 c /\
    sameKeys n1 (set_sNot None (set_sMergedNot [] n)) /\ sameKeys x1 x /\ normal x1.
Proof.
  intros PE fuel n x g s s' R A AO OO MN C N XR XA XN XM HP QQ. apply parseNode_errs in HP; auto.
  destruct HP as (f & s1 & s2 & H & E1 & E2 & _).
  assert (Q : quiet s1 s2) by (unfold quiet; congruence). clear QQ E1 E2.
  pose proof (step_supported _ _ _ _ _ _ H) as HU.
  unfold stepF, schemaStep in H. rewrite HU, R, A, OO, AO, N in H. cbn [is_some orb] in H.
  unfold parseNot in H. unfold collectNots in H. rewrite N, MN in H. cbn [app] in H.
  assert (R' : sRef (set_sNot None (set_sMergedNot [] n)) = None /\ sAllOf (set_sNot None (set_sMergedNot [] n)) = None) by (split; [exact R|exact A]).
  revert H R'. generalize (set_sNot None (set_sMergedNot [] n)). intros n' H [R' A'].
  apply pbind_ok in H. destruct H as (p & s3 & H0 & H).
  assert (K0 : keeps PE s1 s3) by (eapply st_partitionNots; [apply st_merge|exact H0]).
  cbn [partitionNots] in H0.
  apply pbind_ok in H0. destruct H0 as (u & t1 & T1 & H0).
  apply pbind_ok in H0. destruct H0 as (x1 & t2 & T2 & H0).
  assert (X1 : sameKeys x1 x) by (eapply merge_after_empty; [exact XR|exact XA|exact T2]).
  assert (O1 : normal x1) by (eapply merge_normal; [|exact T2]; intros z [<-|[<-|[]]]; auto).
  assert (N1 : sNot x1 = None).
  { pose proof (skNots _ _ X1) as K. unfold collectNots in K. rewrite XN, XM in K. cbn [app] in K. apply app_eq_nil in K. destruct K as [K _].
    destruct (sNot x1); [discriminate|reflexivity]. }
  rewrite N1 in H0.
  apply pbind_ok in H0. destruct H0 as (u2 & t3 & _ & H0).
  apply pbind_ok in H0. destruct H0 as (p0 & t4 & T4 & H0). apply pret_ok in T4. destruct T4 as [-> ->].
  apply pret_ok in H0. destruct H0 as [-> ->]. cbn [fst snd] in H.
  apply pbind_ok in H. destruct H as (n0 & t5 & T5 & H). apply pret_ok in T5. destruct T5 as [-> ->].
  apply pbind_ok in H. destruct H as (n1 & t6 & T6 & H).
  pose proof (st_merge PE _ _ _ _ _ T6) as K1.
  apply pbind_ok in H. destruct H as (st & t7 & T7 & H).
  pose proof (st_applyNots PE _ _ _ _ _ _ _ T7) as K2.
  apply pbind_ok in H. destruct H as (r & t8 & T8 & H).
  pose proof (st_parseF PE _ _ _ _ _ _ T8) as K3. destruct r as [g0|w]; [|apply bad_ok in H; tauto].
  apply good_ok in H. destruct H as [-> ->].
  assert (Q7 : quiet t6 t7).
  { destruct (quiet_mid PE s1 t6 t8) as [_ Qa]; auto. eapply keeps_trans; eauto. eapply keeps_trans; eauto.
    destruct (quiet_mid PE t6 t7 t8); auto. }
  exists g0, (snd st), n1, x1. split; auto.
  split; [|split; [|split; auto]].
  - cbn [applyNots] in T7. apply pbind_ok in T7. destruct T7 as ([m1 c1] & t9 & T9 & T7). apply pret_ok in T7. destruct T7 as [-> ->].
    cbn [fst snd] in *. eapply excludes_within; [apply within_merge|]. eapply notMerge_excludes; eauto.
  - eapply merge_alone; [exact R'|exact A'|exact T6].
Qed.

Lemma multi_values : forall GE g c st v st', yields GE (GConstrained g [CMulti c]) st v st' ->
  (v = JStr multiFailure /\ emitted EvConstraintFail st st') \/
  (madeBy GE g v st st' /\ (emitted EvUnchecked st st' \/ multiPassed GE c v = true)).
Proof.
  intros GE g c st v st' HY. apply yields_step in HY. destruct HY as (k & HY). cbn [genStep] in HY.
  apply constrained_inv in HY. destruct HY as (v0 & t0 & G0 & A0 & HY).
  destruct HY as [(-> & E & A1)|(t1 & A1 & HY)].
  - right. split; auto. exists st, t0. split; [exists k; auto|]. split; auto. apply after_refl.
  - cbn [applyConstr] in HY. apply bindM_ok in HY. destruct HY as (b & s0 & H & HY). pose proof (fwd_budget _ _ _ _ _ H) as AB.
    assert (A2 : after s0 st').
    { apply (fwd_of_inv _ (multiTry GE (generate GE k) (Z.to_nat b) c g v0)) with (2 := HY). intros.
      apply inv_multiTry; auto using stable_after; intros; try (apply invG; auto; apply fwd_generate). }
    assert (A3 : after st s0) by (eapply after_trans; [exact A0|]; eapply after_trans; eauto).
    apply multiTry_ok in HY; [|apply fwd_generate]. destruct HY as [[P [->|U]]|[-> E]].
    + right. split; auto. exists st, t0. split; [exists k; auto|]. split; [apply after_refl|].
      eapply after_trans; [exact A1|]. eapply after_trans; eauto.
    + right. split; auto. apply prod_made in U. destruct U as (x & y & U & X & Y). exists x, y. split; auto. split; auto. eapply after_trans; eauto.
    + left. split; auto. eapply emitted_widen; [exact E|exact A3|apply after_refl].
Qed.

Lemma not_values : forall PE GE fuel n x g s s' st v st', sRef n = None -> sAllOf n = None -> sAnyOf n = None -> sOneOf n = None ->
  sMergedNot n = [] -> sConstraints n = None -> sNot n = Some x ->
  sRef x = None -> sAllOf x = None -> sNot x = None -> sMergedNot x = [] ->
  parseNode PE fuel n s = Ok (Good g, s') -> pErrs s' = pErrs s -> yields GE g st v st' ->
  (v = JStr multiFailure /\ emitted EvConstraintFail st st') \/ emitted EvUnchecked st st' \/
  ((forall p t, sPattern x = Some p -> v = JStr t -> eMatch GE p t = false) /\
   (forall f, sPattern x = None -> sFormat x = Some f -> eIsFormat GE f v = false) /\
   (forall w, sEnum x = None -> sConst x = Some w -> marshal v <> marshal w) /\
   (sEnum n = None -> sConst n = None -> forall l w, sEnum x = Some l -> In w l -> marshal v <> marshal w) /\
   (forall k m, In k (get_or (sRequired x) []) -> ~ In k (get_or (sRequired n) []) -> v = JObj m -> assoc k m = None)).
Proof.
  intros PE GE fuel n x g s s' st v st' R A AO OO MN C N XR XA XN XM HP QQ HY.
  destruct (not_parts _ _ _ _ _ _ _ R A AO OO MN C N XR XA XN XM HP QQ) as (g0 & c & n1 & x1 & -> & EX & KN & KX & OX).
  apply multi_values in HY. destruct HY as [HY|[_ [HY|HY]]]; [auto|auto|]. right. right.
  unfold multiPassed in HY. apply andb_prop in HY. destruct HY as [HY H4]. apply andb_prop in HY. destruct HY as [HY H3].
  apply andb_prop in HY. destruct HY as [H1 H2]. rewrite forallb_forall in H1, H2, H4. apply negb_true_iff in H3.
  assert (V : forall w, In (marshal w) (ccValues c) -> marshal v <> marshal w).
  { intros w I EQ. assert (existsb (same_text (marshal v)) (ccValues c) = true); [|congruence].
    apply existsb_exists. exists (marshal w). split; auto. apply same_text_iff. auto. }
  destruct EX as (X1 & X2 & X3 & X4 & X5). destruct KX as [J1 J2 J3 J4 _ _], KN as [L1 L2 L3 L4 _ _].
  rewrite J1 in X1, X2. rewrite J2 in X2. rewrite J3 in X5. rewrite L3 in X5.
  assert (NV : sEnum n = None -> sConst n = None -> sEnum n1 = None /\ sConst n1 = None).
  { intros E1 E2. unfold collectEnum in L4. cbn [set_sNot set_sMergedNot sEnum sConst] in L4. rewrite E1, E2 in L4.
    destruct (sEnum n1); [discriminate|]. destruct (sConst n1); [discriminate|auto]. }
  split; [|split; [|split; [|split]]].
  - intros p t E1 ->. specialize (H1 p (X1 p E1)). cbn [isStrMatching] in H1. apply negb_true_iff in H1. exact H1.
  - intros f E1 E2. specialize (H2 f (X2 f E1 E2)). apply negb_true_iff in H2. exact H2.
  - intros w E1 E2. apply V. apply X4. apply normal_const; auto. rewrite J4. unfold collectEnum. rewrite E1, E2. reflexivity.
  - intros E1 E2 l w E3 I. apply V. destruct (NV E1 E2) as [E4 E5].
    assert (J5 : collectEnum x1 = Some l) by (rewrite J4; unfold collectEnum; rewrite E3; reflexivity).
    destruct (sEnum x1) as [l1|] eqn:EE.
    + unfold collectEnum in J5. rewrite EE in J5. injection J5 as ->. eapply X3; eauto.
    + apply X4. unfold collectEnum in J5. rewrite EE in J5. destruct (sConst x1) as [y|]; [|discriminate]. injection J5 as <-.
      destruct I as [->|[]]. reflexivity.
  - intros k m I NI ->. specialize (H4 k (X5 k I NI)). cbn [hasProperty] in H4. destruct (assoc k m); [discriminate|reflexivity].
Qed.

(* ------------------------------------------------------------------ excluded values *)
Lemma budget_pos : forall o c base, 1 <= scaledRetryBudget o c base.
Proof.
  intros o c base. unfold scaledRetryBudget. destruct (Z.leb_spec base 0); [lia|]. destruct (negb _); [lia|]. destruct (shouldCutoff o c); [lia|].
  cbv zeta. destruct (fleb _ fzero); [lia|]. destruct (Z.ltb_spec (int_of_f64 (fmul (fdiv (fofZ (oCutoffGenerationSteps o - c)) (fofZ (oCutoffGenerationSteps o - oMaximumGenerationSteps o))) (fofZ base))) 1); lia.
Qed.
Lemma multiPassed_values : forall GE ws v, multiPassed GE (mkCC [] [] (map marshal ws) []) v = true <->
  (forall w, In w ws -> marshal v <> marshal w).
Proof.
  intros GE ws v. unfold multiPassed. cbn [ccRegex ccFormat ccValues ccProps forallb andb]. rewrite andb_true_r, negb_true_iff. split.
  - intros H w I EQ. assert (existsb (same_text (marshal v)) (map marshal ws) = true); [|congruence].
    apply existsb_exists. exists (marshal w). split; [apply in_map; auto|]. apply same_text_iff. auto.
  - intros H. destruct (existsb _ _) eqn:X; auto. apply existsb_exists in X. destruct X as (e & I & T). apply same_text_iff in T.
    apply in_map_iff in I. destruct I as (w & <- & I). exfalso. eapply H; eauto.
Qed.
(* a first value with an encoding that is not excluded is kept *)
Lemma excluded_kept : forall GE g ws st v st1, yields GE g st v st1 -> shouldCutoff (eOpts GE) (gCx st1) = false ->
  (forall w, In w ws -> marshal v <> marshal w) ->
  exists st', yields GE (GConstrained g [CMulti (mkCC [] [] (map marshal ws) [])]) st v st' /\ gLog st' = gLog st1.
Proof.
  intros GE g ws st v st1 (f & H) HC HW. apply multiPassed_values with (GE := GE) in HW.
  exists (mkG (gPos st1) (gGlob st1) (gCx st1 + 1) (gStack st1) (gLog st1)). split; [|reflexivity]. exists (S f). cbn [generate genStep].
  unfold genConstrained, bindM. rewrite H. cbn [bind fst snd]. unfold cutoff, getCx, bindM, ret. cbn [bind]. rewrite HC. cbn [applyAll].
  unfold tick, applyConstr, budget, getCx, bindM, ret. cbn [bind].
  cbn [gCx].
  pose proof (budget_pos (eOpts GE) (gCx st1 + 1) (oMaximumUniqueGeneratorAttempts (eOpts GE))) as B.
  destruct (Z.to_nat (scaledRetryBudget (eOpts GE) (gCx st1 + 1) (oMaximumUniqueGeneratorAttempts (eOpts GE)))) as [|k] eqn:K; [lia|].
  cbn [multiTry]. rewrite HW. reflexivity.
Qed.
(* a value with an excluded encoding is never returned, short of the cutoff *)
Lemma excluded_dropped : forall GE g ws st v st', yields GE (GConstrained g [CMulti (mkCC [] [] (map marshal ws) [])]) st v st' ->
  (v = JStr multiFailure /\ emitted EvConstraintFail st st') \/ emitted EvUnchecked st st' \/ (forall w, In w ws -> marshal v <> marshal w).
Proof.
  intros GE g ws st v st' H. apply multi_values in H. destruct H as [H|[_ [H|H]]]; auto. right. right. eapply multiPassed_values; eauto.
Qed.
