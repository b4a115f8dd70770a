(* Values generated for a schema with a negation: they come from what is left of the schema and do not
   satisfy the negated one. *)
From Coq Require Import ZArith Reals List String Bool Lia.
From Flocq Require Import Core BinarySingleNaN.
From Verif Require Import Base Float64 Json Schema Util Number Gen GenInv Codec CodecFacts PState PFacts RefPath Merge NotMerge Parse ParseKeep ParseShape FloatFacts SpecNumber SpecSchema SpecParse.
From Verif Require Import MergeFacts MergeProps MergeFlat JEq SpecMerge MergeValid SpecRun ValueProps NotProps ConstrProps NotValues SpecNegate NotKeep.
Import ListNotations.
Open Scope string_scope.
Open Scope Z_scope.

(* ------------------------------------------------------------------ merging one schema copies its bounds *)
Record sameBounds (m n : schemaNode) : Prop := mkSameBounds {
  sbSizes : sizesOf m = sizesOf n;
  sbNumbers : numbersOf m = numbersOf n }.
Lemma into_bounds_copied : forall rec m n s m' s', sameBounds m emptyNode -> mergeInto rec m n s = Ok (m', s') -> sameBounds m' n.
Proof.
  intros rec m n s m' s' [K1 K2] H. unfold sizesOf, numbersOf in K1, K2. cbn in K1, K2.
  injection K1 as A1 A2 A3 A4 A5 A6 A7 A8. injection K2 as B1 B2 B3 B4.
  fields H. subst m'. clear -A1 A2 A3 A4 A5 A6 A7 A8 B1 B2 B3 B4. constructor; unfold sizesOf, numbersOf;
  cbn [sMinimum sMaximum sExclusiveMinimum sExclusiveMaximum sMinLength sMaxLength sMinItems sMaxItems sMinContains sMaxContains sMinProperties sMaxProperties];
  rewrite ?A1, ?A2, ?A3, ?A4, ?A5, ?A6, ?A7, ?A8, ?B1, ?B2, ?B3, ?B4.
  - destruct (sMinLength n), (sMaxLength n), (sMinItems n), (sMaxItems n), (sMinContains n), (sMaxContains n), (sMinProperties n), (sMaxProperties n); reflexivity.
  - destruct (sMinimum n), (sMaximum n), (sExclusiveMinimum n), (sExclusiveMaximum n); reflexivity.
Qed.
Lemma merge_empty_bounds : forall E fuel n s m s', sRef n = None -> sAllOf n = None -> merge E fuel [emptyNode; n] s = Ok (m, s') -> sameBounds m n.
Proof.
  intros E fuel n s m s' R A H. apply merge_flat in H; [|intros x [<-|[<-|[]]]; auto]. destruct H as (f & _ & H).
  apply into_two in H. destruct H as (m1 & s1 & H & H1). eapply into_bounds_copied; [|exact H1].
  eapply into_bounds_copied; [|exact H]. constructor; reflexivity.
Qed.
Lemma merge_empty_type : forall E fuel t s m s', properType (Some t) -> merge E fuel [emptyNode; set_sType (Some t) emptyNode] s = Ok (m, s') ->
  m = set_sType (Some t) emptyNode.
Proof.
  intros E fuel t s m s' P H. apply merge_flat in H; [|intros x [<-|[<-|[]]]; split; reflexivity]. destruct H as (f & _ & H).
  assert (X : intoAll (merge E (S f)) emptyNode [emptyNode; set_sType (Some t) emptyNode] s = Ok (set_sType (mergeTypes (mergeTypes None None) (Some t)) emptyNode, s))
    by (vm_compute; reflexivity).
  rewrite X in H. clear X. injection H as <- _. destruct t as [a [l|]]; cbn in P.
  - destruct P as (-> & NE & NI). unfold mergeTypes. cbn. destruct l; [contradiction|reflexivity].
  - unfold mergeTypes. cbn [mtSingle]. destruct (String.eqb_spec a ""); [contradiction|reflexivity].
Qed.

Section Decide.
Variable E : penv.
Variable matches formatted : string -> string -> Prop.
Variable refers : string -> json -> Prop.
Notation valid := (valid matches formatted refers).

(* lengths, counts and bounds of the negated schema *)
Lemma compatible_excluded : forall f n x s m c s' v, compatible n x -> notMerge E (S f) n x s = Ok ((m, c), s') -> quiet s s' ->
  okFlat matches formatted m v ->
  (forall str, v = JStr str -> sMinLength x <> None \/ sMaxLength x <> None -> ~ okRange (sMinLength x) (sMaxLength x) (Z.of_nat (String.length str))) /\
  (forall l, v = JArr l -> sMinItems x <> None \/ sMaxItems x <> None -> ~ okRange (sMinItems x) (sMaxItems x) (Z.of_nat (List.length l))) /\
  (forall o, v = JObj o -> sMinProperties x <> None \/ sMaxProperties x <> None -> ~ okRange (sMinProperties x) (sMaxProperties x) (Z.of_nat (List.length o))) /\
  (forall z, numberValue v z -> (exists a, In (Some a) (numbersOf x)) -> ~ okBounds x z).
Proof.
  intros f n x s m c s' v CP H Q V.
  pose proof H as H0. cbn [notMerge] in H0. pose proof (notStep_left _ _ _ _ _ _ _ _ (st_notMerge E f) H0 Q) as L. clear H0.
  destruct V as (VT & VE & VC & VS & VN & VA & VO).
  assert (NR : forall t, ~ reports s s' t) by (intros t R; eapply quiet_not; eauto).
  assert (SZ : forall w, In (Some w) (sizesOf n ++ sizesOf x)%list -> w < 2 ^ 31 - 12) by apply (cpSizes _ _ CP).
  unfold sizesOf in SZ. cbn [app In] in SZ.
  split; [|split; [|split]].
  - intros str ->. destruct (VS str eq_refl) as (V1 & V2 & V3).
    eapply boundsInt_ok; [exact (lfLength _ _ _ _ _ L)|lia| |exact V1]. intros w Hw. apply SZ. clear -Hw. tauto.
  - intros l ->. destruct (VA l eq_refl) as (V1 & V2).
    eapply boundsInt_ok; [exact (lfItemCount _ _ _ _ _ L)|lia| |exact V1]. intros w Hw. apply SZ. clear -Hw. tauto.
  - intros o ->. destruct (VO o eq_refl) as (V1 & V2).
    eapply boundsInt_ok; [exact (lfPropCount _ _ _ _ _ L)|lia| |exact V1]. intros w Hw. apply SZ. clear -Hw. tauto.
  - intros z Hz. destruct (VN z Hz) as [V1 V2].
    destruct (lfType _ _ _ _ _ L) as (t & ET & EM).
    destruct (in_dec string_dec "integer" (typeNames (sType m))) as [I|NI].
    + rewrite EM in I. pose proof (resolved_proper n x t (cpType _ _ CP) ET) as [_ RS].
      destruct (notMerge_number_int E (S f) n x s m c s' z H (cpType _ _ CP) (cpMultiples _ _ CP)) as [R|[R|R]].
      * rewrite EM. exact I.
      * apply (cpIntegers _ _ CP). apply RS. exact I.
      * elim (NR _ R).
      * elim (NR _ R).
      * destruct (R V1) as [_ R2]. exact R2.
    + assert (CN : ~ In "integer" (typeNames (sType n)) \/ In "number" (typeNames (sType x)) /\ sType x <> None).
      { destruct (in_dec string_dec "integer" (typeNames (sType n))) as [I|N]; auto. right.
        destruct (integer_left n x t (cpType _ _ CP) ET I (cpMultiples _ _ CP)) as [A|A]; auto. rewrite EM in NI. contradiction. }
      destruct (cpNumbers _ _ CP CN) as (X1 & X2 & X3).
      destruct (notMerge_number_real E (S f) n x s m c s' z H (cpType _ _ CP) (cpMultiples _ _ CP) NI X1 X2 X3) as [R|[R|R]].
      * elim (NR _ R).
      * elim (NR _ R).
      * destruct (R V1) as [_ R2]. exact R2.
Qed.
End Decide.

(* ------------------------------------------------------------------ the check of the negation *)
Lemma passed_values : forall GE n1 x1 c v, excludes n1 x1 c -> multiPassed GE c v = true ->
  (forall p t, sPattern x1 = Some p -> v = JStr t -> eMatch GE p t = false) /\
  (forall f, sPattern x1 = None -> sFormat x1 = Some f -> eIsFormat GE f v = false) /\
  (sEnum n1 = None -> sConst n1 = None -> forall l w, sEnum x1 = Some l -> In w l -> marshal v <> marshal w) /\
  (forall w, sConst x1 = Some w -> marshal v <> marshal w) /\
  (forall k m, In k (get_or (sRequired x1) []) -> ~ In k (get_or (sRequired n1) []) -> v = JObj m -> assoc k m = None).
Proof.
  intros GE n1 x1 c v (X1 & X2 & X3 & X4 & X5) HY.
  unfold multiPassed in HY. apply andb_prop in HY. destruct HY as [HY H4]. apply andb_prop in HY. destruct HY as [HY H3].
  apply andb_prop in HY. destruct HY as [H1 H2]. rewrite forallb_forall in H1, H2, H4. apply negb_true_iff in H3.
  assert (V : forall w, In (marshal w) (ccValues c) -> marshal v <> marshal w).
  { intros w I EQ. assert (existsb (same_text (marshal v)) (ccValues c) = true); [|congruence].
    apply existsb_exists. exists (marshal w). split; auto. apply same_text_iff. auto. }
  split; [|split; [|split; [|split]]].
  - intros p t E1 ->. specialize (H1 p (X1 p E1)). cbn [isStrMatching] in H1. apply negb_true_iff in H1. exact H1.
  - intros f E1 E2. specialize (H2 f (X2 f E1 E2)). apply negb_true_iff in H2. exact H2.
  - intros E1 E2 l w E3 I. apply V. eapply X3; eauto.
  - intros w E1. apply V. apply X4. exact E1.
  - intros k m I NI ->. specialize (H4 k (X5 k I NI)). cbn [hasProperty] in H4. destruct (assoc k m); [discriminate|reflexivity].
Qed.
Lemma passed_refused : forall GE n1 x1 c v, excludes n1 x1 c -> multiPassed GE c v = true -> refused n1 x1 v.
Proof.
  intros GE n1 x1 c v X P k o -> I _. destruct (passed_values _ _ _ _ _ X P) as (_ & _ & _ & _ & H).
  unfold refusedNames in I. apply filter_In in I. destruct I as [I N]. eapply H; eauto.
  intros J. apply negb_true_iff in N. apply mem_string_In in J. congruence.
Qed.
Lemma scalar_text : forall w v, scalar w -> jeq w v -> marshal v = marshal w.
Proof.
  intros w v S J. destruct S as [->|[[b ->]|[t ->]]]; inversion J; subst; try reflexivity; match goal with H : numberValue _ _ |- _ => destruct H end.
Qed.
Lemma typed_value : forall T v, properType T -> okType T v -> T <> None -> exists t, In t (typeNames T) /\ hasType t v.
Proof.
  intros [[a [l|]]|] v P O N; cbn in *; [| |contradiction].
  - destruct O as (t & I & H). eauto.
  - exists a. split; auto.
Qed.

Section Excluded.
Variable PE : penv.
Variable GE : env.
Variable matches formatted : string -> string -> Prop.
Variable refers : string -> json -> Prop.
Notation valid := (valid matches formatted refers).

Lemma negated_not : forall f n x x1 n1 m c1 c ta tb tc td te v,
  sRef n = None -> sAllOf n = None -> sRef x = None -> sAllOf x = None ->
  merge PE f [emptyNode; x] ta = Ok (x1, tb) -> merge PE f [set_sNot None (set_sMergedNot [] n)] tc = Ok (n1, td) ->
  notMerge PE f n1 x1 td = Ok ((m, c1), te) -> quiet td te -> within c1 c ->
  compatible n1 x1 -> decides GE matches formatted n x -> multiPassed GE c v = true ->
  okFlat matches formatted m v -> okType (sType n) v -> ~ valid x v.
Proof.
  intros f n x x1 n1 m c1 c ta tb tc td te v R A XR XA MX MN H Q W CP D P V OT VX.
  apply valid_eq in VX. destruct VX as (XF & _). destruct XF as (XT & XE & XC & XS & XN & XAr & XO).
  pose proof (merge_after_empty _ _ _ _ _ _ XR XA MX) as [J1 J2 J3 J4 _ _].
  pose proof (merge_empty_bounds _ _ _ _ _ _ XR XA MX) as [S1 S2].
  assert (R' : sRef (set_sNot None (set_sMergedNot [] n)) = None /\ sAllOf (set_sNot None (set_sMergedNot [] n)) = None) by (split; [exact R|exact A]).
  pose proof (merge_alone _ _ _ _ _ _ (proj1 R') (proj2 R') MN) as [L1 L2 L3 L4 _ _].
  assert (OX : normal x1) by (eapply merge_normal; [|exact MX]; intros z [<-|[<-|[]]]; auto).
  assert (EX : excludes n1 x1 c) by (eapply excludes_within; [exact W|]; eapply notMerge_excludes; eauto).
  destruct (passed_values _ _ _ _ _ EX P) as (P1 & P2 & P3 & P4 & P5).
  destruct f as [|f]; [discriminate H|].
  destruct (compatible_excluded _ _ _ _ _ _ _ _ _ _ _ CP H Q V) as (C1 & C2 & C3 & C4).
  unfold sizesOf in S1. unfold numbersOf in S2, C4. injection S1 as B1 B2 B3 B4 B5 B6 B7 B8. injection S2 as B9 B10 B11 B12.
  rewrite B1, B2 in C1. rewrite B3, B4 in C2. rewrite B7, B8 in C3.
  destruct D as [(t & -> & PT & IN)|[(EN & w & EC & SC)|[(N1 & N2 & l & EL & SC)|(PT & D)]]].
  - apply merge_empty_type in MX; auto. subst x1.
    destruct (notMerge_type_values PE (S f) n1 t td m c1 te v H (cpType _ _ CP) PT IN) as [Rp|Rp].
    + eapply quiet_not; eauto.
    + destruct V as (VT & _). destruct (Rp VT) as [_ NT]. apply NT. exact XT.
  - apply (P4 w).
    + apply normal_const; auto. rewrite J4. unfold collectEnum. rewrite EN, EC. reflexivity.
    + apply scalar_text; auto.
  - assert (NV : sEnum n1 = None /\ sConst n1 = None).
    { unfold collectEnum in L4. cbn [set_sNot set_sMergedNot sEnum sConst] in L4. rewrite N1, N2 in L4.
      destruct (sEnum n1); [discriminate|]. destruct (sConst n1); [discriminate|auto]. }
    destruct (XE l EL) as (w & I & J). pose proof (scalar_text _ _ (SC w I) J) as T.
    assert (J5 : collectEnum x1 = Some l) by (rewrite J4; unfold collectEnum; rewrite EL; reflexivity).
    destruct (sEnum x1) as [l1|] eqn:EE.
    + unfold collectEnum in J5. rewrite EE in J5. injection J5 as ->. eapply P3; eauto; apply NV.
    + unfold collectEnum in J5. rewrite EE in J5. destruct (sConst x1) as [y|] eqn:EY; [|discriminate]. injection J5 as <-.
      destruct I as [->|[]]. eapply P4; eauto.
  - assert (NT : sType n <> None).
    { intros X. rewrite X in D. destruct (D "null") as [[X1 _]|[[X1 _]|[[X1 _]|[[X1|X1] _]]]]; cbn; auto 10; discriminate. }
    destruct (typed_value _ _ PT OT NT) as (t & It & HT).
    destruct (D t It) as [[-> K]|[[-> K]|[[-> K]|[TT (a & IA)]]]].
    + destruct HT as [[X _]|[[X _]|[[X _]|[[X _]|[(_ & str & ->)|[[X _]|[X _]]]]]]]; try discriminate X.
      destruct (XS str eq_refl) as (Y1 & Y2 & Y3).
      destruct K as [K|[K|[(p & E1 & M)|(fm & E1 & E2 & M)]]].
      * apply (C1 str eq_refl); auto.
      * apply (C1 str eq_refl); auto.
      * rewrite <- J1 in E1. specialize (P1 p str E1 eq_refl). rewrite J1 in E1. rewrite (M str (Y2 p E1)) in P1. discriminate.
      * rewrite <- J1 in E1. rewrite <- J2 in E2. specialize (P2 fm E1 E2). rewrite J2 in E2. rewrite (M str (Y3 fm E2)) in P2. discriminate.
    + destruct HT as [[X _]|[[X _]|[[X _]|[[X _]|[[X _]|[(_ & l & ->)|[X _]]]]]]]; try discriminate X.
      apply (C2 l eq_refl K). apply XAr. reflexivity.
    + destruct HT as [[X _]|[[X _]|[[X _]|[[X _]|[[X _]|[[X _]|(_ & o & ->)]]]]]]; try discriminate X.
      destruct (XO o eq_refl) as (Y1 & Y2). destruct K as [K|[K|(k & I & NI)]].
      * apply (C3 o eq_refl); auto.
      * apply (C3 o eq_refl); auto.
      * assert (Z : assoc k o = None).
        { apply (P5 k o); auto; [rewrite J3; exact I|]. rewrite L3. exact NI. }
        apply assoc_None in Z. apply Z. destruct (sRequired x) as [rq|]; [|destruct I]. eapply Y2; [reflexivity|exact I].
    + assert (exists z, numberValue v z) as (z & HZ).
      { destruct TT as [-> | ->]; destruct HT as [[X _]|[[X _]|[(_ & z & Z)|[(_ & z & Z & _)|[[X _]|[[X _]|[X _]]]]]]]; try discriminate X; eauto. }
      apply (C4 z HZ).
      * exists a. rewrite B9, B10, B11, B12. exact IA.
      * destruct (XN z HZ) as [Y _]. clear -Y B9 B10 B11 B12. unfold okBounds, okMinimum, okMaximum, okExclusiveMinimum, okExclusiveMaximum in *.
        rewrite B9, B10, B11, B12. exact Y.
Qed.

Lemma valid_without : forall n x v, sNot n = Some x -> valid (set_sNot None (set_sMergedNot [] n)) v -> ~ valid x v -> valid n v.
Proof.
  intros n x v E V NX. rewrite valid_eq in V. rewrite valid_eq.
  cbn [sType sLength sProperties sAdditionalProperties sPatternProperties sItems sContains sMinContains sMaxContains sPrefixItems sAdditionalItems sNot sAllOf sAnyOf sOneOf sIf sThen sElse sRef set_sNot set_sMergedNot] in V.
  change (okFlat matches formatted (set_sNot None (set_sMergedNot [] n)) v) with (okFlat matches formatted n v) in V. rewrite E.
  destruct V as (V1 & V2 & V3 & V4 & V5 & V6 & _ & V8). exact (conj V1 (conj V2 (conj V3 (conj V4 (conj V5 (conj V6 (conj NX V8))))))).
Qed.
End Excluded.

(* ------------------------------------------------------------------ one negated schema *)
Lemma not_run : forall PE f n x g s1 s2, sRef n = None -> sAllOf n = None -> sAnyOf n = None -> sOneOf n = None ->
  sMergedNot n = [] -> sNot n = Some x ->
  sRef x = None -> sAllOf x = None -> sNot x = None -> sMergedNot x = [] ->
  stepF PE f n s1 = Ok (Good g, s2) -> pErrs s2 = [] ->
  exists g0 m c n1 x1 c1 ta tb tc td te,
    g = GConstrained g0 [CMulti c] /\ within c1 c /\
    (merge PE f [emptyNode; x] ta = Ok (x1, tb) /\ pErrs tb = []) /\
    (merge PE f [set_sNot None (set_sMergedNot [] n)] tc = Ok (n1, td) /\ pErrs td = []) /\
    (notMerge PE f n1 x1 td = Ok ((m, c1), te) /\ pErrs te = [] /\ quiet td te) /\
    (parseNode PE f m te = Ok (Good g0, s2) /\ pDepth te = pDepth s1).
Proof.
  intros PE f n x g s1 s2 R A AO OO MN N XR XA XN XM H Q.
  pose proof (step_supported _ _ _ _ _ _ H) as HU.
  unfold stepF, schemaStep in H. rewrite HU, R, A, OO, AO, N in H. cbn [is_some orb] in H.
  unfold parseNot in H. unfold collectNots in H. rewrite N, MN in H. cbn [app] in H.
  revert H. generalize (set_sNot None (set_sMergedNot [] n)). intros n' H.
  apply pbind_ok in H. destruct H as (p & s3 & H0 & H).
  assert (K0 : keeps PE s1 s3) by (eapply st_partitionNots; [apply st_merge|exact H0]).
  cbn [partitionNots] in H0.
  apply pbind_ok in H0. destruct H0 as (u & t1 & T1 & H0).
  apply pbind_ok in H0. destruct H0 as (x1 & t2 & T2 & H0).
  assert (X1 : sameKeys x1 x) by (eapply merge_after_empty; [exact XR|exact XA|exact T2]).
  assert (N1 : sNot x1 = None).
  { pose proof (skNots _ _ X1) as K. unfold collectNots in K. rewrite XN, XM in K. cbn [app] in K. apply app_eq_nil in K. destruct K as [K _].
    destruct (sNot x1); [discriminate|reflexivity]. }
  rewrite N1 in H0.
  apply pbind_ok in H0. destruct H0 as (u2 & t3 & T3 & H0).
  apply pbind_ok in H0. destruct H0 as (p0 & t4 & T4 & H0). apply pret_ok in T4. destruct T4 as [-> ->].
  apply pret_ok in H0. destruct H0 as [-> ->]. cbn [fst snd] in H.
  apply pbind_ok in H. destruct H as (n0 & t5 & T5 & H). apply pret_ok in T5. destruct T5 as [-> ->].
  apply pbind_ok in H. destruct H as (n1 & t6 & T6 & H).
  pose proof (st_merge PE _ _ _ _ _ T6) as K1.
  apply pbind_ok in H. destruct H as (st & t7 & T7 & H).
  pose proof (st_applyNots PE _ _ _ _ _ _ _ T7) as K2.
  apply pbind_ok in H. destruct H as (r & t8 & T8 & H).
  pose proof (st_parseF PE _ _ _ _ _ _ T8) as K3. destruct r as [g0|w]; [|apply bad_ok in H; tauto].
  apply good_ok in H. destruct H as [-> ->].
  assert (EB : forall a b, keeps PE a b -> pErrs b = [] -> pErrs a = []).
  { intros a b K E. destruct (kErrs _ _ _ K) as [l Hl]. rewrite E in Hl. symmetry in Hl. apply app_eq_nil in Hl. tauto. }
  assert (E7 : pErrs t7 = []) by (eapply EB; eauto). assert (E6 : pErrs t6 = []) by (eapply EB; eauto). assert (E3 : pErrs t3 = []) by (eapply EB; eauto).
  assert (E2 : pErrs t2 = []). { unfold popPath in T3. apply pmod_ok in T3. subst t3. exact E3. }
  cbn [applyNots] in T7. apply pbind_ok in T7. destruct T7 as ([m1 c1] & t9 & T9 & T7). apply pret_ok in T7. destruct T7 as [-> ->].
  cbn [fst snd] in *.
  exists g0, m1, (mergeColl emptyColl c1), n1, x1, c1, t1, t2, t3, t6, t9.
  split; [reflexivity|]. split; [apply within_merge|]. split; [auto|]. split; [auto|]. split; [split; [exact T9|]; split; [exact E7|unfold quiet; congruence]|].
  split; [exact T8|]. rewrite (kDepth _ _ _ K2), (kDepth _ _ _ K1), (kDepth _ _ _ K0). reflexivity.
Qed.
