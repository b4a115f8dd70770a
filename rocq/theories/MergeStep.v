(* Merging one schema into another: nothing is lost when the two agree, and the result agrees with
   everything both agree with. *)
From Coq Require Import ZArith Reals List String Bool Lia Lra Permutation.
From Flocq Require Import Core BinarySingleNaN.
From Verif Require Import Base Float64 Json Schema Util Number Gen Codec PState PFacts RefPath Merge NotMerge Parse ParseKeep FloatFacts SpecNumber SpecSchema MergeFacts MergeProps JEq SpecMerge MergeValid.
Import ListNotations.
Open Scope string_scope.
Open Scope Z_scope.

(* ------------------------------------------------------------------ enum and const *)
Definition inList (n : schemaNode) (v : json) : Prop := forall l, collectEnum n = Some l -> exists x, In x l /\ jeq x v.
Definition texts (n : schemaNode) : Prop := forall l x, collectEnum n = Some l -> In x l -> marshal x <> None.
Lemma inList_ok : forall n v, oneList n -> (okEnum (sEnum n) v /\ okConst (sConst n) v <-> inList n v).
Proof.
  intros n v [H|H]; unfold okEnum, okConst, inList, collectEnum; rewrite H.
  - split.
    + intros [_ H1] l. destruct (sConst n) as [c|]; [|discriminate]. intros E; inversion E; subst. exists c. simpl. auto.
    + intros H1. split; [discriminate|]. intros x E. rewrite E in H1. destruct (H1 _ eq_refl) as (y & [->|[]] & ?). auto.
  - split.
    + intros [H1 _] l. destruct (sEnum n); [auto|discriminate].
    + intros H1. split; [|discriminate]. intros l E. rewrite E in H1. auto.
Qed.
Lemma texts_ok : forall n, oneList n -> (texts n <->
  (forall l x, sEnum n = Some l -> In x l -> marshal x <> None) /\ (forall x, sConst n = Some x -> marshal x <> None)).
Proof.
  intros n O. unfold texts, collectEnum. split.
  - intros H. split.
    + intros l x E I. rewrite E in H. eapply H; eauto.
    + intros x E. destruct O as [O|O]; [|congruence]. rewrite O, E in H. apply (H _ x eq_refl). simpl. auto.
  - intros [H1 H2] l x E I. destruct (sEnum n) as [e|] eqn:En.
    + inversion E; subst. eauto.
    + destruct (sConst n) as [c|]; [|discriminate]. inversion E; subst. destruct I as [<-|[]]. auto.
Qed.
Lemma intersect_jeq : forall a b v, (forall x, In x a -> marshal x <> None) ->
  (exists x, In x (intersectEnum a b) /\ jeq x v) -> (exists x, In x a /\ jeq x v) /\ (exists x, In x b /\ jeq x v).
Proof.
  intros a b v T (x & H & E). unfold intersectEnum in H. apply filter_In in H. destruct H as [H1 H2].
  apply mem_enc_In in H2. apply in_map_iff in H2. destruct H2 as (y & Ey & Hy).
  split; [exists x; auto|]. exists y. split; auto. eapply jeq_trans; [|exact E].
  destruct (marshal x) as [e|] eqn:Ex; [|destruct (T x H1 Ex)]. eapply marshal_jeq; eauto.
Qed.
Lemma mergeEnum_step : forall m n, oneList m -> oneList n -> texts m -> texts n -> snd (mergeEnum m n) = false ->
  oneList (fst (mergeEnum m n)) /\ texts (fst (mergeEnum m n)) /\
  forall v, inList (fst (mergeEnum m n)) v -> inList m v /\ inList n v.
Proof.
  intros m n Om On Tm Tn. unfold mergeEnum, inList, texts in *.
  destruct (collectEnum m) as [l|] eqn:Em, (collectEnum n) as [r|] eqn:En.
  - destruct (intersectEnum l r) as [|i t] eqn:Ei; cbn [fst snd]; [discriminate|]. intros _.
    split; [apply collect_put|]. rewrite (proj1 (collect_put _ m)). rewrite <- Ei. split.
    + intros l0 x E I. injection E as <-. unfold intersectEnum in I. apply filter_In in I. destruct I as [I _]. eapply Tm; eauto.
    + intros v H. specialize (H _ eq_refl). apply intersect_jeq in H; [|intros x I; eapply Tm; eauto].
      destruct H. split; intros ? E; injection E as <-; auto.
  - cbn [fst snd]. intros _. split; [apply collect_put|]. rewrite (proj1 (collect_put _ m)). split; [exact Tm|].
    intros v H. split; [exact H|discriminate].
  - cbn [fst snd]. intros _. split; [apply collect_put|]. rewrite (proj1 (collect_put _ m)). split; [exact Tn|].
    intros v H. split; [discriminate|exact H].
  - cbn [fst snd]. intros _. rewrite Em. split; [exact Om|]. split; [intros; discriminate|]. intros v _. split; intros; discriminate.
Qed.

(* ------------------------------------------------------------------ the keywords without sub-schemas *)
Lemma types_step : forall a b, properType a -> properType b -> sameIfBoth a b ->
  properType (mergeTypes a b) /\ (forall t, a = Some t -> mergeTypes a b = Some t) /\ (forall t, b = Some t -> mergeTypes a b = Some t) /\
  (a = None -> b = None -> mergeTypes a b = None).
Proof.
  intros a b Pa Pb S. unfold mergeTypes. destruct b as [u|].
  - assert (U : Some (if negb (String.eqb (mtSingle u) "") then mkMT (mtSingle u) None
            else match mtMultiple u with Some (x :: r) => mkMT "" (Some (x :: r)) | _ => get_or a (mkMT "" None) end) = Some u).
    { f_equal. destruct u as [sg [l|]]; cbn in *.
      - destruct Pb as (-> & Hl & _). cbn. destruct l; [congruence|reflexivity].
      - destruct (String.eqb_spec sg ""); [congruence|reflexivity]. }
    rewrite U. split; [auto|]. split; [|split; [auto|discriminate]]. intros t Et. symmetry. f_equal. eapply S; eauto.
  - repeat split; auto. discriminate.
Qed.
Lemma getPtr_step : forall A (a b : option A), sameIfBoth a b ->
  (forall t, a = Some t -> getPtr b a = Some t) /\ (forall t, b = Some t -> getPtr b a = Some t).
Proof. intros A a b S. unfold getPtr. destruct b; split; auto; [|discriminate]. intros t Et. symmetry. f_equal. eapply S; eauto. Qed.
Lemma getPtr_or : forall A (a b : option A) t, getPtr b a = Some t -> a = Some t \/ b = Some t.
Proof. intros A a [b|] t; cbn; auto. Qed.
Lemma slices_step : forall A (a b : option (list A)), a <> Some [] -> b <> Some [] -> notBoth a b ->
  mergeSlicePtrs a b <> Some [] /\ (forall t, a = Some t -> mergeSlicePtrs a b = Some t) /\ (forall t, b = Some t -> mergeSlicePtrs a b = Some t) /\
  (forall t, mergeSlicePtrs a b = Some t -> a = Some t \/ b = Some t).
Proof.
  intros A a b Na Nb [->| ->]; unfold mergeSlicePtrs; cbn [get_or app].
  - destruct b as [[|x r]|]; cbn; repeat split; auto; congruence.
  - destruct a as [[|x r]|]; cbn; rewrite ?app_nil_r; repeat split; auto; congruence.
Qed.
Lemma hcf_step : forall a b : option f64, (forall q, a = Some q -> is_finite q = true /\ B2R q <> 0%R) -> (forall q, b = Some q -> is_finite q = true /\ B2R q <> 0%R) ->
  notBoth a b -> findHcf b a = match b with Some _ => b | None => a end.
Proof.
  intros a b Ha Hb N. unfold findHcf. destruct b as [y|]; auto.
  destruct (Hb y eq_refl) as [F1 F2].
  replace (feqb y fzero) with false. { destruct N as [->|N]; [reflexivity|discriminate]. }
  symmetry. apply feqb_neq; [exact F1|reflexivity|]. change (val fzero) with 0%R. exact F2.
Qed.

Section Step.
Variable E : penv.
Variable rec : list schemaNode -> P schemaNode.
Hypothesis recStable : forall l, stable E (rec l).
Variable matches : string -> string -> Prop.
Variable formatted : string -> string -> Prop.
Variable refers : string -> json -> Prop.
Notation valid := (valid matches formatted refers).

Lemma quiet_enum : forall m n s m' s', mergeInto rec m n s = Ok (m', s') -> quiet s' -> snd (mergeEnum m n) = false.
Proof.
  intros m n s m' s' H Q. destruct (snd (mergeEnum m n)) eqn:D; auto. exfalso. apply Q. clear Q. fields H.
  rewrite mergeEnum_type, D in Hs1. destruct H9 as [fl H9].
  assert (K : keeps E s1 s').
  { eapply keeps_trans; [eapply st_mergeMap; eauto|]. eapply keeps_trans; [eapply st_mergeNof; eauto|].
    eapply keeps_trans; [eapply st_mergeMap; eauto|]. eapply keeps_trans; [eapply st_mergePrefix; eauto|].
    eapply keeps_trans; [eapply st_mergeItems; eauto|]. eapply keeps_trans; [eapply st_mergeNof; eauto|].
    eapply keeps_trans; [eapply st_mergeNof; eauto|]. eapply keeps_trans; [eapply st_mergePtr; eauto|].
    eapply st_warnAll; eauto. }
  destruct (kErrs _ _ _ K) as [l Hl]. rewrite Hl, Hs1. cbn [pErrs withErrs].
  exists (pParsing s), (pPath s). apply in_app_iff. right. left. reflexivity.
Qed.

Lemma flat_step : forall m n s m' s' v, mergeInto rec m n s = Ok (m', s') -> quiet s' -> single m -> single n -> agree m n ->
  okFlat matches formatted m' v -> okFlat matches formatted m v /\ okFlat matches formatted n v.
Proof.
  intros m n s m' s' v H Q Sm Sn Ag.
  pose proof (quiet_enum _ _ _ _ _ H Q) as Qe.
  destruct (into_bounds _ _ _ _ _ _ H (siBounds _ Sm) (siBounds _ Sn)) as [_ Bd].
  destruct (mergeEnum_step m n (siOne _ Sm) (siOne _ Sn)) as (Oe & Te & Le); auto.
  { apply texts_ok; [apply Sm|]. split; [apply (siEnum _ Sm)|apply (siConst _ Sm)]. }
  { apply texts_ok; [apply Sn|]. split; [apply (siEnum _ Sn)|apply (siConst _ Sn)]. }
  destruct (types_step _ _ (siType _ Sm) (siType _ Sn) (agType _ _ Ag)) as (_ & T1 & T2 & _).
  destruct (getPtr_step _ _ _ (agPattern _ _ Ag)) as (P1 & P2).
  destruct (getPtr_step _ _ _ (agFormat _ _ Ag)) as (F1 & F2).
  destruct (getPtr_step _ _ _ (agUnique _ _ Ag)) as (U1 & U2).
  pose proof (hcf_step _ _ (siMultiple _ Sm) (siMultiple _ Sn) (agMultiple _ _ Ag)) as Hh.
  fields H.
  assert (E1 : sType m' = mergeTypes (sType m) (sType n)) by (rewrite Em; reflexivity).
  assert (E2 : sPattern m' = getPtr (sPattern n) (sPattern m)) by (rewrite Em; reflexivity).
  assert (E3 : sFormat m' = getPtr (sFormat n) (sFormat m)) by (rewrite Em; reflexivity).
  assert (E4 : sUniqueItems m' = getPtr (sUniqueItems n) (sUniqueItems m)) by (rewrite Em; reflexivity).
  assert (E5 : sMultipleOf m' = findHcf (sMultipleOf n) (sMultipleOf m)) by (rewrite Em; reflexivity).
  assert (E6 : sEnum m' = sEnum (fst (mergeEnum m n)) /\ sConst m' = sConst (fst (mergeEnum m n))) by (rewrite Em; split; reflexivity).
  assert (E7 : sRequired m' = mergeSlicePtrs (sRequired m) (sRequired n)) by (rewrite Em; reflexivity).
  assert (E8 : sMinLength m' = maxIntPtr (sMinLength n) (sMinLength m) /\ sMaxLength m' = minIntPtr (sMaxLength n) (sMaxLength m)) by (rewrite Em; split; reflexivity).
  assert (E9 : sMinItems m' = maxIntPtr (sMinItems n) (sMinItems m) /\ sMaxItems m' = minIntPtr (sMaxItems n) (sMaxItems m)) by (rewrite Em; split; reflexivity).
  assert (E10 : sMinProperties m' = maxIntPtr (sMinProperties n) (sMinProperties m) /\ sMaxProperties m' = minIntPtr (sMaxProperties n) (sMaxProperties m)) by (rewrite Em; split; reflexivity).
  assert (E11 : okBounds m' = okBounds (set_sMinimum (maxFloatPtr (sMinimum n) (sMinimum m)) (set_sMaximum (minFloatPtr (sMaximum n) (sMaximum m))
            (set_sExclusiveMinimum (maxFloatPtr (sExclusiveMinimum n) (sExclusiveMinimum m)) (set_sExclusiveMaximum (minFloatPtr (sExclusiveMaximum n) (sExclusiveMaximum m)) emptyNode)))))
    by (rewrite Em; reflexivity).
  assert (BB : forall x, okBounds m' x -> okBounds m x /\ okBounds n x).
  { intros x. rewrite E11. destruct (siBounds _ Sm) as (G1 & G2 & G3 & G4), (siBounds _ Sn) as (K1 & K2 & K3 & K4).
    unfold okBounds, okMinimum, okMaximum, okExclusiveMinimum, okExclusiveMaximum. cbn [sMinimum sMaximum sExclusiveMinimum sExclusiveMaximum set_sMinimum set_sMaximum set_sExclusiveMinimum set_sExclusiveMaximum].
    destruct (fmax_ok _ _ K1 G1) as [_ L1], (fmin_ok _ _ K2 G2) as [_ L2], (fmax_ok _ _ K3 G3) as [_ L3], (fmin_ok _ _ K4 G4) as [_ L4].
    rewrite (proj1 (L1 x)), (proj1 (L2 x)), (proj2 (L3 x)), (proj2 (L4 x)). tauto. }
  clear -E1 E2 E3 E4 E5 E6 E7 E8 E9 E10 BB Oe Te Le T1 T2 P1 P2 F1 F2 U1 U2 Hh Sm Sn Ag.
  intros (K1 & K2 & K3 & K4 & K5 & K6 & K7).
  assert (KE : (okEnum (sEnum m) v /\ okConst (sConst m) v) /\ (okEnum (sEnum n) v /\ okConst (sConst n) v)).
  { rewrite (proj1 E6) in K2. rewrite (proj2 E6) in K3. rewrite (inList_ok m), (inList_ok n) by (apply Sm || apply Sn).
    apply Le. apply inList_ok; auto. }
  assert (KT : okType (sType m) v /\ okType (sType n) v).
  { rewrite E1 in K1. split.
    - destruct (sType m) as [t|]; [|exact I]. rewrite (T1 t eq_refl) in K1. exact K1.
    - destruct (sType n) as [t|]; [|exact I]. rewrite (T2 t eq_refl) in K1. exact K1. }
  assert (KS : okString matches formatted m v /\ okString matches formatted n v).
  { split; intros s Hs; destruct (K4 s Hs) as (A & B & C); rewrite (proj1 E8), (proj2 E8) in A; apply range_both in A; rewrite E2 in B; rewrite E3 in C;
    (split; [tauto|split; auto]). }
  assert (KN : okNumber m v /\ okNumber n v).
  { split; intros x Hx; destruct (K5 x Hx) as (A & B); apply BB in A; (split; [tauto|]); intros q Eq; unfold okMultipleOf in B; rewrite E5, Hh in B.
    - destruct (agMultiple _ _ Ag) as [N|N]; [congruence|]. rewrite N in B. auto.
    - rewrite Eq in B. auto. }
  assert (KA : okArray m v /\ okArray n v).
  { split; intros l Hl; destruct (K6 l Hl) as (A & B); rewrite (proj1 E9), (proj2 E9) in A; apply range_both in A; rewrite E4 in B; (split; [tauto|auto]). }
  assert (KO : okObject m v /\ okObject n v).
  { split; intros l Hl; destruct (K7 l Hl) as (A & B); rewrite (proj1 E10), (proj2 E10) in A; apply range_both in A; (split; [tauto|]); intros r k Er Ik;
    assert (W : In k (get_or (sRequired m') [])) by (rewrite E7; apply mergeSlice_In; rewrite Er; cbn; auto);
    (destruct (sRequired m') as [rq|]; [|destruct W]); apply (B rq k eq_refl W). }
  unfold okFlat. tauto.
Qed.

(* ------------------------------------------------------------------ the sub-schemas *)
Notation meets := (meets rec).
Record subSteps (m n m' : schemaNode) : Prop := mkSubs {
  ssProperty : forall k, meets (subAt (AtProperty k) m) (subAt (AtProperty k) n) (subAt (AtProperty k) m');
  ssPattern : forall k, meets (subAt (AtPattern k) m) (subAt (AtPattern k) n) (subAt (AtPattern k) m');
  ssPosition : forall i, meets (subAt (AtPosition i) m) (subAt (AtPosition i) n) (subAt (AtPosition i) m');
  ssItems : meets (subAt AtItems m) (subAt AtItems n) (subAt AtItems m');
  ssContains : meets (subAt AtContains m) (subAt AtContains n) (subAt AtContains m');
  ssAdditional : (forbids (sAdditionalProperties m') /\ (sAdditionalProperties m' = sAdditionalProperties m \/ sAdditionalProperties m' = sAdditionalProperties n)) \/
    (~ forbids (sAdditionalProperties m') /\ ~ forbids (sAdditionalProperties m) /\ ~ forbids (sAdditionalProperties n) /\
     meets (subAt AtAdditional m) (subAt AtAdditional n) (subAt AtAdditional m'));
  ssAdditionalNone : sAdditionalProperties m' = None <-> sAdditionalProperties m = None /\ sAdditionalProperties n = None;
  ssNoDup : NoDup (keys (get_or (sProperties m') [])) /\ NoDup (keys (get_or (sPatternProperties m') []));
  ssLength : List.length (get_or (sPrefixItems m') []) = Nat.max (List.length (get_or (sPrefixItems m) [])) (List.length (get_or (sPrefixItems n) []));
  ssPlain : plainItems (sItems m') }.

Lemma sub_steps : forall m n s m' s', mergeInto rec m n s = Ok (m', s') -> quiet s' -> single m -> single n -> subSteps m n m'.
Proof.
  intros m n s m' s' H Q Sm Sn. fields H. destruct H9 as [fl H9].
  assert (Q9 : quiet s9) by (eapply (quiet_back E); [|exact Q]; eapply st_warnAll; eauto).
  assert (Q8 : quiet s8) by (eapply (quiet_back E); [|exact Q9]; eapply st_mergePtr; eauto).
  assert (Q7 : quiet s7) by (eapply (quiet_back E); [|exact Q8]; eapply st_mergeNof; eauto).
  assert (Q6 : quiet s6) by (eapply (quiet_back E); [|exact Q7]; eapply st_mergeNof; eauto).
  assert (Q5 : quiet s5) by (eapply (quiet_back E); [|exact Q6]; eapply st_mergeItems; eauto).
  assert (Q4 : quiet s4) by (eapply (quiet_back E); [|exact Q5]; eapply st_mergePrefix; eauto).
  assert (Q3 : quiet s3) by (eapply (quiet_back E); [|exact Q4]; eapply st_mergeMap; eauto).
  assert (Q2 : quiet s2) by (eapply (quiet_back E); [|exact Q3]; eapply st_mergeNof; eauto).
  destruct (map_meets E rec recStable _ _ _ _ _ H1 Q2 (siProperties _ Sm) (siProperties _ Sn)) as [N1 M1].
  destruct (nof_meets rec _ _ _ _ _ H2 Q3) as [A1 A2].
  destruct (map_meets E rec recStable _ _ _ _ _ H3 Q4 (siPatterns _ Sm) (siPatterns _ Sn)) as [N2 M2].
  destruct (prefix_meets E rec recStable _ _ _ _ _ H4 Q5) as [L1 M3].
  destruct (items_meets rec _ _ _ _ _ H5 Q6 (siItems _ Sm) (siItems _ Sn)) as [I1 M4].
  pose proof (ptr_meets rec _ _ _ _ _ H8 Q9) as M5.
  rewrite Em. constructor; cbn [subAt sProperties sPatternProperties sPrefixItems sItems sContains sAdditionalProperties]; auto.
Qed.

Lemma key_sub : forall (k : string) (l : list (string * schemaNode)), In k (keys l) <-> ofOption (assoc k l) <> [].
Proof.
  intros k l. split.
  - intros I. destruct (key_assoc _ _ _ I) as [v ->]. discriminate.
  - destruct (assoc k l) eqn:A; [intros _; eapply assoc_Some_key; eauto|intros H; destruct H; reflexivity].
Qed.
Lemma keys_step : forall m n m', subSteps m n m' ->
  (forall k, In k (keys (get_or (sProperties m') [])) <-> In k (keys (get_or (sProperties m) [])) \/ In k (keys (get_or (sProperties n) []))) /\
  (forall k, In k (keys (get_or (sPatternProperties m') [])) <-> In k (keys (get_or (sPatternProperties m) [])) \/ In k (keys (get_or (sPatternProperties n) []))).
Proof.
  assert (D : forall l l' : list schemaNode, l <> [] \/ l' <> [] <-> ~ (l = [] /\ l' = [])).
  { intros [|] [|]; split; try tauto; try (intros _ []; discriminate); intros _; try (left; discriminate); try (right; discriminate). }
  intros m n m' S. split; intros k; rewrite !key_sub, D.
  - pose proof (meets_nil _ _ _ _ (ssProperty _ _ _ S k)) as W. cbn [subAt] in W. tauto.
  - pose proof (meets_nil _ _ _ _ (ssPattern _ _ _ S k)) as W. cbn [subAt] in W. tauto.
Qed.
Lemma items_none : forall n, single n -> (sItems n = None <-> subAt AtItems n = []).
Proof.
  intros n S. cbn [subAt]. destruct (sItems n) as [d|] eqn:Ed; [|tauto]. destruct (siItems _ S d Ed) as (H & _).
  destruct (itNode d); [|congruence]. split; discriminate.
Qed.

Lemma single_step : forall m n s m' s', mergeInto rec m n s = Ok (m', s') -> quiet s' -> single m -> single n -> agree m n -> single m'.
Proof.
  intros m n s m' s' H Q Sm Sn Ag.
  pose proof (sub_steps _ _ _ _ _ H Q Sm Sn) as SS.
  pose proof (quiet_enum _ _ _ _ _ H Q) as Qe.
  destruct (into_bounds _ _ _ _ _ _ H (siBounds _ Sm) (siBounds _ Sn)) as [Bd _].
  destruct (mergeEnum_step m n (siOne _ Sm) (siOne _ Sn)) as (Oe & Te & _); auto.
  { apply texts_ok; [apply Sm|]. split; [apply (siEnum _ Sm)|apply (siConst _ Sm)]. }
  { apply texts_ok; [apply Sn|]. split; [apply (siEnum _ Sn)|apply (siConst _ Sn)]. }
  apply texts_ok in Te; auto. destruct Te as [Te Tc].
  pose proof (types_step _ _ (siType _ Sm) (siType _ Sn) (agType _ _ Ag)) as (Ty & _).
  pose proof (hcf_step _ _ (siMultiple _ Sm) (siMultiple _ Sn) (agMultiple _ _ Ag)) as Hh.
  pose proof (slices_step _ _ _ (siAnyOf _ Sm) (siAnyOf _ Sn) (agAnyOf _ _ Ag)) as (Sa & _).
  pose proof (slices_step _ _ _ (siOneOf _ Sm) (siOneOf _ Sn) (agOneOf _ _ Ag)) as (So & _).
  assert (Nn : snd (mergedNots (sNot m) (sMergedNot m) (sNot n) (sMergedNot n)) = []).
  { rewrite (siNot _ Sm), (siNot _ Sn). unfold mergedNots. destruct (agNot _ _ Ag) as [->| ->]; [destruct (sNot n); reflexivity|destruct (sNot m); reflexivity]. }
  rewrite <- (proj2 (mergeNot_nots m n)) in Nn.
  destruct (siIf _ Sm) as [I1 I2], (siIf _ Sn) as [I3 I4].
  fields H.
  assert (Ha : addi = None) by (rewrite (siAdditionalItems _ Sm), (siAdditionalItems _ Sn) in H6; cbn in H6; apply pret_ok in H6; tauto).
  destruct SS as [_ _ _ _ _ _ _ [D1 D2] _ Pl].
  constructor.
  - rewrite Em. cbn [sRef]. rewrite (siRef _ Sm), (siRef _ Sn). reflexivity.
  - exact Bd.
  - rewrite Em. exact Ty.
  - rewrite Em. exact Oe.
  - rewrite Em. exact Te.
  - rewrite Em. exact Tc.
  - rewrite Em. cbn [sMultipleOf]. rewrite Hh. intros q Eq. destruct (sMultipleOf n) as [q'|] eqn:E1; [apply (siMultiple _ Sn); rewrite E1; exact Eq|apply (siMultiple _ Sm); exact Eq].
  - exact Pl.
  - rewrite Em. exact Ha.
  - rewrite Em. cbn [sMinContains]. intros k. unfold maxIntPtr. pose proof (siMinContains _ Sm) as K1. pose proof (siMinContains _ Sn) as K2.
    destruct (sMinContains n) as [a|], (sMinContains m) as [b|]; intros Ek; try discriminate.
    + destruct (a <? b); inversion Ek; subst; auto.
    + auto.
    + auto.
  - rewrite Em. cbn [sMaxContains]. rewrite (siMaxContains _ Sm), (siMaxContains _ Sn). reflexivity.
  - rewrite Em. exact Sa.
  - rewrite Em. exact So.
  - rewrite Em. cbn [sIf sMergedIf]. rewrite Emi. unfold mergeIf. rewrite I3. cbn [sMergedIf set_sMergedIf]. rewrite I2, I4. auto.
  - rewrite Em. cbn [sMergedNot]. rewrite Emn. exact Nn.
  - exact D1.
  - exact D2.
Qed.

Lemma same_step : forall A (a b c r : option A), sameIfBoth a c -> sameIfBoth b c -> (forall t, r = Some t -> a = Some t \/ b = Some t) -> sameIfBoth r c.
Proof. intros A a b c r H1 H2 H x y X Y. destruct (H x X); eauto. Qed.
Lemma notBoth_step : forall A (a b c r : option A), notBoth a c -> notBoth b c -> (forall t, r = Some t -> a = Some t \/ b = Some t) -> notBoth r c.
Proof.
  intros A a b c [t|] H1 H2 H; [|left; reflexivity]. right. destruct (H t eq_refl) as [->| ->]; [destruct H1|destruct H2]; congruence.
Qed.

Lemma agree_step : forall m n s m' s' x, mergeInto rec m n s = Ok (m', s') -> quiet s' -> single m -> single n -> agree m n ->
  agree m x -> agree n x -> agree m' x.
Proof.
  intros m n s m' s' x H Q Sm Sn Ag Ax Bx.
  pose proof (sub_steps _ _ _ _ _ H Q Sm Sn) as SS.
  pose proof (single_step _ _ _ _ _ H Q Sm Sn Ag) as Sm'.
  pose proof (types_step _ _ (siType _ Sm) (siType _ Sn) (agType _ _ Ag)) as (_ & T1 & T2 & T3).
  pose proof (hcf_step _ _ (siMultiple _ Sm) (siMultiple _ Sn) (agMultiple _ _ Ag)) as Hh.
  pose proof (slices_step _ _ _ (siAnyOf _ Sm) (siAnyOf _ Sn) (agAnyOf _ _ Ag)) as (_ & _ & _ & Sa).
  pose proof (slices_step _ _ _ (siOneOf _ Sm) (siOneOf _ Sn) (agOneOf _ _ Ag)) as (_ & _ & _ & So).
  assert (Nn : forall t, sNot (mergeNot m n) = Some t -> sNot m = Some t \/ sNot n = Some t).
  { rewrite (proj1 (mergeNot_nots m n)). rewrite (siNot _ Sm), (siNot _ Sn). unfold mergedNots. destruct (agNot _ _ Ag) as [->| ->]; [destruct (sNot n); cbn; auto|destruct (sNot m); cbn; auto]. }
  destruct (keys_step _ _ _ SS) as [KP KQ].
  assert (C1 : covers m' x).
  { destruct (agLeft _ _ Ax) as [C1 C2], (agLeft _ _ Bx) as [C3 C4]. split.
    - intros Ha. rewrite (ssAdditionalNone _ _ _ SS) in Ha.
      destruct (sAdditionalProperties m) eqn:E1.
      + destruct C1 as [C1 C1']; [discriminate|]. split; intros k Ik; [apply KP|apply KQ]; left; auto.
      + destruct (sAdditionalProperties n) eqn:E2; [|tauto]. destruct C3 as [C3 C3']; [discriminate|]. split; intros k Ik; [apply KP|apply KQ]; right; auto.
    - intros Hi. rewrite (ssLength _ _ _ SS). rewrite (items_none _ Sm'), (meets_nil _ _ _ _ (ssItems _ _ _ SS)) in Hi. rewrite <- (items_none _ Sm), <- (items_none _ Sn) in Hi.
      destruct (sItems m); [specialize (C2 ltac:(discriminate)); lia|]. destruct (sItems n); [specialize (C4 ltac:(discriminate)); lia|tauto]. }
  assert (C2 : covers x m').
  { destruct (agRight _ _ Ax) as [C2 C3], (agRight _ _ Bx) as [C4 C5]. split.
    - intros Ha. destruct (C2 Ha) as [D1 D2], (C4 Ha) as [D3 D4]. split; intros k Ik; [apply KP in Ik|apply KQ in Ik]; destruct Ik; auto.
    - intros Hi. rewrite (ssLength _ _ _ SS). specialize (C3 Hi). specialize (C5 Hi). lia. }
  clear SS Sm' KP KQ. fields H. clear H1 H2 H3 H4 H5 H6 H7 H8 H9 Hs1.
  constructor; auto; rewrite Em; cbn [sType sPattern sFormat sUniqueItems sMultipleOf sAnyOf sOneOf sNot].
  - eapply same_step; [apply Ax|apply Bx|]. intros t Et. destruct (sType m) as [u|].
    + rewrite (T1 u eq_refl) in Et. auto.
    + destruct (sType n) as [u|]; [rewrite (T2 u eq_refl) in Et; auto|]. rewrite T3 in Et; auto.
  - eapply same_step; [apply Ax|apply Bx|]. apply getPtr_or.
  - eapply same_step; [apply Ax|apply Bx|]. apply getPtr_or.
  - eapply same_step; [apply Ax|apply Bx|]. apply getPtr_or.
  - eapply notBoth_step; [apply Ax|apply Bx|]. rewrite Hh. destruct (sMultipleOf n); auto.
  - eapply notBoth_step; [apply Ax|apply Bx|]. exact Sa.
  - eapply notBoth_step; [apply Ax|apply Bx|]. exact So.
  - eapply notBoth_step; [apply Ax|apply Bx|]. rewrite Ent. exact Nn.
Qed.

Lemma single_body : forall a n, single n <-> single (set_sAllOf a n).
Proof. intros a n. split; intros []; constructor; assumption. Qed.
Lemma agree_body : forall a b m n, agree m n <-> agree (set_sAllOf a m) (set_sAllOf b n).
Proof. intros a b m n. split; intros []; constructor; assumption. Qed.
Lemma agree_body_l : forall a m n, agree m n <-> agree (set_sAllOf a m) n.
Proof. intros a m n. split; intros []; constructor; assumption. Qed.
Lemma subAt_body : forall w a n, subAt w (set_sAllOf a n) = subAt w n.
Proof. intros [] a n; reflexivity. Qed.

Lemma atLeast_mono : forall (Q Q' : json -> Prop) k k' l, (forall x, Q x -> Q' x) -> k' <= k -> atLeast Q k l -> atLeast Q' k' l.
Proof.
  intros Q Q' k k' l HQ Hk H. revert k' Hk. induction H; intros k' Hk.
  - apply al_done. lia.
  - apply al_take; auto. apply IHatLeast. lia.
  - apply al_skip. auto.
Qed.

Lemma valid_step : forall d m n X s m' s', recOk matches formatted refers rec d -> mergeInto rec m n s = Ok (m', s') -> quiet s' ->
  fit (S d) (set_sAllOf None m :: set_sAllOf None n :: X) ->
  fit (S d) (set_sAllOf None m' :: X) /\
  forall v, valid (set_sAllOf None m') v -> valid (set_sAllOf None m) v /\ valid (set_sAllOf None n) v.
Proof.
  intros d m n X s m' s' R H Q F. apply fit_S in F. destruct F as (F1 & F2 & F3).
  assert (Sm : single m) by (apply (single_body None), F1; simpl; auto).
  assert (Sn : single n) by (apply (single_body None), F1; simpl; auto).
  inversion F2 as [|? ? P1 P2]; subst. inversion P2 as [|? ? P3 P4]; subst. inversion P1 as [|? ? Ag P5]; subst. apply agree_body in Ag.
  pose proof (sub_steps _ _ _ _ _ H Q Sm Sn) as SS.
  pose proof (single_step _ _ _ _ _ H Q Sm Sn Ag) as Sm'.
  assert (T : forall w, together d (subAt w m ++ subAt w n ++ concatMap (subAt w) X)%list).
  { intros w. specialize (F3 w). cbn [concatMap] in F3. rewrite !subAt_body in F3. exact F3. }
  split.
  - apply fit_S. split; [|split].
    + intros c [<-|I]; [apply single_body; exact Sm'|apply F1; simpl; auto].
    + constructor; [|exact P4]. rewrite Forall_forall in *. intros x I. apply agree_body_l.
      eapply (agree_step m n); eauto; apply (agree_body_l None); auto.
    + intros w. cbn [concatMap]. rewrite subAt_body. specialize (T w).
      destruct w as [k|k|i| | |].
      * eapply meets_together; eauto. apply SS.
      * eapply meets_together; eauto. apply SS.
      * eapply meets_together; eauto. apply SS.
      * eapply meets_together; eauto. apply SS.
      * eapply meets_together; eauto. apply SS.
      * destruct (ssAdditional _ _ _ SS) as [[_ [D|D]]|(_ & _ & _ & M)]; [| |eapply meets_together; eauto].
        -- assert (W : subAt AtAdditional m' = subAt AtAdditional m) by (cbn [subAt]; rewrite D; reflexivity). rewrite W.
           eapply together_perm in T; [|apply fit_perm|]. 2:{ rewrite app_assoc. eapply Permutation_trans; [apply Permutation_app_tail, Permutation_app_comm|]. rewrite <- app_assoc. apply Permutation_refl. }
           apply together_tail in T. exact T.
        -- assert (W : subAt AtAdditional m' = subAt AtAdditional n) by (cbn [subAt]; rewrite D; reflexivity). rewrite W.
           apply together_tail in T. exact T.
  - assert (VS : forall w la ln lm v, la = subAt w m -> ln = subAt w n -> lm = subAt w m' -> meets la ln lm -> (forall c, In c lm -> valid c v) ->
      (forall c, In c la -> valid c v) /\ (forall c, In c ln -> valid c v)).
    { intros w la ln lm v -> -> -> M. eapply meets_valid; eauto. }
    intros v. rewrite !valid_parts; try reflexivity; try (apply single_body; assumption).
    change (okFlat matches formatted (set_sAllOf None m) v) with (okFlat matches formatted m v).
    change (okFlat matches formatted (set_sAllOf None n) v) with (okFlat matches formatted n v).
    change (okFlat matches formatted (set_sAllOf None m') v) with (okFlat matches formatted m' v).
    change (objectPart matches formatted refers (set_sAllOf None m) v) with (objectPart matches formatted refers m v).
    change (objectPart matches formatted refers (set_sAllOf None n) v) with (objectPart matches formatted refers n v).
    change (objectPart matches formatted refers (set_sAllOf None m') v) with (objectPart matches formatted refers m' v).
    change (arrayPart matches formatted refers (set_sAllOf None m) v) with (arrayPart matches formatted refers m v).
    change (arrayPart matches formatted refers (set_sAllOf None n) v) with (arrayPart matches formatted refers n v).
    change (arrayPart matches formatted refers (set_sAllOf None m') v) with (arrayPart matches formatted refers m' v).
    change (choicePart matches formatted refers (set_sAllOf None m) v) with (choicePart matches formatted refers m v).
    change (choicePart matches formatted refers (set_sAllOf None n) v) with (choicePart matches formatted refers n v).
    change (choicePart matches formatted refers (set_sAllOf None m') v) with (choicePart matches formatted refers m' v).
    intros (Fl & Ob & Ar & Ch).
    destruct (flat_step _ _ _ _ _ v H Q Sm Sn Ag Fl) as [Fm Fn].
    destruct (keys_step _ _ _ SS) as [KP KQ].
    assert (Om : objectPart matches formatted refers m v /\ objectPart matches formatted refers n v).
    { assert (IA : forall k (l : list (string * schemaNode)) c, NoDup (keys l) -> In (k, c) l -> In c (ofOption (assoc k l))).
      { intros k l c N I. rewrite (In_assoc _ _ _ _ N I). simpl. auto. }
      assert (AI : forall k (l : list (string * schemaNode)) c, In c (ofOption (assoc k l)) -> In (k, c) l).
      { intros k l c I. destruct (assoc k l) eqn:A; [|destruct I]. destruct I as [<-|[]]. apply assoc_In; auto. }
      destruct (ssNoDup _ _ _ SS) as [D1 D2].
      assert (OP : forall o, v = JObj o ->
        (forall k c x, In (k, c) (get_or (sProperties m) []) -> assoc k o = Some x -> valid c x) /\
        (forall k c x, In (k, c) (get_or (sProperties n) []) -> assoc k o = Some x -> valid c x) /\
        (forall p c k x, In (p, c) (get_or (sPatternProperties m) []) -> assoc k o = Some x -> matches p k -> valid c x) /\
        (forall p c k x, In (p, c) (get_or (sPatternProperties n) []) -> assoc k o = Some x -> matches p k -> valid c x)).
      { intros o Ho. destruct (Ob o Ho) as (O1 & O2 & _).
        assert (B1 : forall k x, assoc k o = Some x -> (forall c, In c (subAt (AtProperty k) m) -> valid c x) /\ (forall c, In c (subAt (AtProperty k) n) -> valid c x)).
        { intros k x A. apply (VS (AtProperty k) _ _ _ x eq_refl eq_refl eq_refl (ssProperty _ _ _ SS k)). intros c I. eapply O1; eauto. }
        assert (B2 : forall p k x, assoc k o = Some x -> matches p k -> (forall c, In c (subAt (AtPattern p) m) -> valid c x) /\ (forall c, In c (subAt (AtPattern p) n) -> valid c x)).
        { intros p k x A Mt. apply (VS (AtPattern p) _ _ _ x eq_refl eq_refl eq_refl (ssPattern _ _ _ SS p)). intros c I. eapply O2; eauto. }
        split; [|split; [|split]].
        - intros k c x I A. apply (proj1 (B1 k x A)). apply IA; [apply Sm|auto].
        - intros k c x I A. apply (proj2 (B1 k x A)). apply IA; [apply Sn|auto].
        - intros p c k x I A Mt. apply (proj1 (B2 p k x A Mt)). apply IA; [apply Sm|auto].
        - intros p c k x I A Mt. apply (proj2 (B2 p k x A Mt)). apply IA; [apply Sn|auto]. }
      split; intros o Ho; destruct (OP o Ho) as (O1 & O2 & O3 & O4); destruct (Ob o Ho) as (_ & _ & O5).
      - split; [exact O1|]. split; [exact O3|]. intros dd k x Ed A N1 N2.
        assert (Ne : exists d', sAdditionalProperties m' = Some d').
        { destruct (sAdditionalProperties m') eqn:E'; eauto. apply SS in E'. destruct E'. congruence. }
        destruct Ne as [d' Ed']. destruct (agLeft _ _ Ag) as [C1 _]. destruct C1 as [C1 C2]; [congruence|].
        destruct (O5 d' k x Ed' A) as [V1 V2].
        { intros I. apply KP in I. destruct I; auto. }
        { intros p I. apply KQ in I. destruct I; auto. }
        destruct (ssAdditional _ _ _ SS) as [[(d2 & X1 & X2) _]|(_ & X1 & _ & M)]; [congruence|].
        split. { destruct (nofFalse dd) eqn:Fd; auto. destruct X1. exists dd. auto. }
        intros c Ec. refine (proj1 (VS AtAdditional _ _ _ x eq_refl eq_refl eq_refl M _) c _).
        + cbn [subAt]. rewrite Ed'. intros c' I. apply V2. destruct (nofSchema d'); [|destruct I]. destruct I as [<-|[]]. reflexivity.
        + cbn [subAt]. rewrite Ed, Ec. simpl. auto.
      - split; [exact O2|]. split; [exact O4|]. intros dd k x Ed A N1 N2.
        assert (Ne : exists d', sAdditionalProperties m' = Some d').
        { destruct (sAdditionalProperties m') eqn:E'; eauto. apply SS in E'. destruct E'. congruence. }
        destruct Ne as [d' Ed']. destruct (agRight _ _ Ag) as [C1 _]. destruct C1 as [C1 C2]; [congruence|].
        destruct (O5 d' k x Ed' A) as [V1 V2].
        { intros I. apply KP in I. destruct I; auto. }
        { intros p I. apply KQ in I. destruct I; auto. }
        destruct (ssAdditional _ _ _ SS) as [[(d2 & X1 & X2) _]|(_ & _ & X1 & M)]; [congruence|].
        split. { destruct (nofFalse dd) eqn:Fd; auto. destruct X1. exists dd. auto. }
        intros c Ec. refine (proj2 (VS AtAdditional _ _ _ x eq_refl eq_refl eq_refl M _) c _).
        + cbn [subAt]. rewrite Ed'. intros c' I. apply V2. destruct (nofSchema d'); [|destruct I]. destruct I as [<-|[]]. reflexivity.
        + cbn [subAt]. rewrite Ed, Ec. simpl. auto. }
    assert (Arm : arrayPart matches formatted refers m v /\ arrayPart matches formatted refers n v).
    { assert (Mc : sMinContains m' = maxIntPtr (sMinContains n) (sMinContains m)) by (fields H; rewrite Em; reflexivity).
      assert (OI : forall A (o : option A) c, o = Some c <-> In c (ofOption o)).
      { intros A [a|] c; cbn; [|split; [discriminate|tauto]]. split; [intros E0; inversion E0; auto|intros [<-|[]]; auto]. }
      assert (AP : forall l, v = JArr l -> forall i x, nth_error l i = Some x ->
        (forall c, nth_error (get_or (sPrefixItems m) []) i = Some c -> valid c x) /\ (forall c, nth_error (get_or (sPrefixItems n) []) i = Some c -> valid c x)).
      { intros l Hl i x Hi. destruct (Ar l Hl) as (A1 & _).
        destruct (VS (AtPosition i) _ _ _ x eq_refl eq_refl eq_refl (ssPosition _ _ _ SS i)) as [B1 B2].
        { intros c I. cbn [subAt] in I. apply OI in I. eauto. }
        split; intros c Ec; [apply B1|apply B2]; cbn [subAt]; apply OI; auto. }
      assert (Ln : forall c x l, In x (skipn (List.length (get_or (sPrefixItems m') [])) l) -> v = JArr l -> In c (subAt AtItems m) \/ In c (subAt AtItems n) -> valid c x).
      { intros c x l I Hl Ic. destruct (Ar l Hl) as (_ & A2 & _).
        destruct (VS AtItems _ _ _ x eq_refl eq_refl eq_refl (ssItems _ _ _ SS)) as [B1 B2].
        { intros c' I'. cbn [subAt] in I'. destruct (sItems m') as [d'|] eqn:Ed; [|destruct I']. apply OI in I'. eapply A2; eauto. }
        destruct Ic; auto. }
      assert (Ct : forall l, v = JArr l -> forall c x, In c (subAt AtContains m') -> valid c x ->
         (forall c', sContains m = Some c' -> valid c' x) /\ (forall c', sContains n = Some c' -> valid c' x)).
      { intros l Hl c x I V0.
        destruct (VS AtContains _ _ _ x eq_refl eq_refl eq_refl (ssContains _ _ _ SS)) as [B1 B2].
        { intros c' I'. cbn [subAt] in I, I'. apply OI in I, I'. rewrite I in I'. inversion I'; subst. auto. }
        split; intros c' Ec; [apply B1|apply B2]; cbn [subAt]; apply OI; auto. }
      pose proof (meets_nil _ _ _ _ (ssContains _ _ _ SS)) as CN. cbn [subAt] in CN.
      pose proof (siMinContains _ Sm) as K1. pose proof (siMinContains _ Sn) as K2.
      split; intros l Hl; destruct (Ar l Hl) as (A1 & A2 & A3); (split; [intros i c x Ei Ex; destruct (AP l Hl i x Ex); auto|]); split.
      - intros dd c x Ed Ec I. apply (Ln c x l); auto; [|left; cbn [subAt]; rewrite Ed; apply OI; auto].
        rewrite (ssLength _ _ _ SS). destruct (agLeft _ _ Ag) as [_ C]. rewrite Nat.max_l; [exact I|]. apply C. congruence.
      - intros c Ec. destruct (sContains m') as [c'|] eqn:Ec'.
        + specialize (A3 c' eq_refl). eapply atLeast_mono; [| |exact A3].
          * intros x V0. destruct (Ct l Hl c' x) as [W1 W2]; [cbn [subAt]; rewrite Ec'; simpl; auto|exact V0|auto].
          * rewrite Mc. unfold maxIntPtr. destruct (sMinContains n) as [a|], (sMinContains m) as [b|]; cbn [get_or]; try lia.
            -- destruct (Z.ltb_spec a b); cbn [get_or]; lia.
            -- specialize (K2 _ eq_refl). lia.
        + cbn [ofOption] in CN. destruct (proj1 CN eq_refl) as [W _]. rewrite Ec in W. discriminate.
      - intros dd c x Ed Ec I. apply (Ln c x l); auto; [|right; cbn [subAt]; rewrite Ed; apply OI; auto].
        rewrite (ssLength _ _ _ SS). destruct (agRight _ _ Ag) as [_ C]. rewrite Nat.max_r; [exact I|]. apply C. congruence.
      - intros c Ec. destruct (sContains m') as [c'|] eqn:Ec'.
        + specialize (A3 c' eq_refl). eapply atLeast_mono; [| |exact A3].
          * intros x V0. destruct (Ct l Hl c' x) as [W1 W2]; [cbn [subAt]; rewrite Ec'; simpl; auto|exact V0|auto].
          * rewrite Mc. unfold maxIntPtr. destruct (sMinContains n) as [a|], (sMinContains m) as [b|]; cbn [get_or]; try lia.
            -- destruct (Z.ltb_spec a b); cbn [get_or]; lia.
            -- specialize (K1 _ eq_refl). lia.
        + cbn [ofOption] in CN. destruct (proj1 CN eq_refl) as [_ W]. rewrite Ec in W. discriminate. }
    assert (Cm : choicePart matches formatted refers m v /\ choicePart matches formatted refers n v).
    { pose proof (slices_step _ _ _ (siAnyOf _ Sm) (siAnyOf _ Sn) (agAnyOf _ _ Ag)) as (_ & S1 & S2 & _).
      pose proof (slices_step _ _ _ (siOneOf _ Sm) (siOneOf _ Sn) (agOneOf _ _ Ag)) as (_ & S3 & S4 & _).
      assert (N1 : (forall t, sNot m = Some t -> sNot m' = Some t) /\ (forall t, sNot n = Some t -> sNot m' = Some t)).
      { fields H. rewrite Em. cbn [sNot]. rewrite Ent, (proj1 (mergeNot_nots m n)), (siNot _ Sm), (siNot _ Sn). unfold mergedNots.
        destruct (agNot _ _ Ag) as [W|W]; rewrite W; [destruct (sNot n)|destruct (sNot m)]; cbn; auto; split; congruence. }
      assert (A1 : sAnyOf m' = mergeSlicePtrs (sAnyOf m) (sAnyOf n)) by (fields H; rewrite Em; reflexivity).
      assert (A2 : sOneOf m' = mergeSlicePtrs (sOneOf m) (sOneOf n)) by (fields H; rewrite Em; reflexivity).
      destruct Ch as (C1 & C2 & C3). rewrite A1 in C1. rewrite A2 in C2. destruct N1 as [N1 N2]. split; (split; [|split]).
      - destruct (sAnyOf m) as [t|]; [|exact I]. rewrite (S1 t eq_refl) in C1. exact C1.
      - destruct (sOneOf m) as [t|]; [|exact I]. rewrite (S3 t eq_refl) in C2. exact C2.
      - destruct (sNot m) as [t|]; [|exact I]. rewrite (N1 t eq_refl) in C3. exact C3.
      - destruct (sAnyOf n) as [t|]; [|exact I]. rewrite (S2 t eq_refl) in C1. exact C1.
      - destruct (sOneOf n) as [t|]; [|exact I]. rewrite (S4 t eq_refl) in C2. exact C2.
      - destruct (sNot n) as [t|]; [|exact I]. rewrite (N2 t eq_refl) in C3. exact C3. }
    destruct Om, Arm, Cm. exact (conj (conj Fm (conj H0 (conj H2 H4))) (conj Fn (conj H1 (conj H3 H5)))).
Qed.
End Step.
