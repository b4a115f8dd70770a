(* Parsing a schema without references ends. *)
From Coq Require Import ZArith List String Ascii Bool Lia.
From Verif Require Import Base Float64 Json Schema NodeFacts Util Number Gen Codec PState PFacts RefPath Merge NotMerge Parse ParseKeep MergeFacts MergeProps FuelMono.
Import ListNotations.
Open Scope string_scope.
Open Scope Z_scope.

(* no $ref at any depth *)
Definition nr (n : schemaNode) : Prop := forall m, within n m -> sRef m = None.
Lemma nr_sub : forall n c, nr n -> In c (subnodes n) -> nr c.
Proof. intros n c H Hc m Hm. apply H. eapply within_step; eauto. Qed.
Lemma nr_intro : forall n, sRef n = None -> (forall c, In c (subnodes n) -> nr c) -> nr n.
Proof. intros n H Hc m Hm. destruct Hm as [n|n c d Hin Hd]; auto. exact (Hc _ Hin _ Hd). Qed.
Lemma nr_ref : forall n, nr n -> sRef n = None.
Proof. intros n H. apply H. apply within_refl. Qed.
Lemma nr_empty : nr emptyNode.
Proof. apply nr_intro; [reflexivity|]. intros c []. Qed.

(* weight: the sizes of the proper sub-schemas *)
Definition wt (n : schemaNode) : nat := lsum (subnodes n).
Definition wts (l : list schemaNode) : nat := lsz wt l.
Lemma wts_app : forall a b, wts (a ++ b) = (wts a + wts b)%nat.
Proof. induction a; simpl; intros; auto. unfold wts in *. simpl. rewrite IHa. lia. Qed.
Lemma size_wt : forall n, nsize n = S (wt n).
Proof. exact nsize_eq. Qed.
Lemma wt_eq : forall n, wt n = (lsum (omaps (sProperties n)) + lsum (nofs (sAdditionalProperties n)) + lsum (omaps (sPatternProperties n)) +
  lsum (itemss (sItems n)) + lsum (onode (sContains n)) + lsum (olist (sPrefixItems n)) + lsum (nofs (sAdditionalItems n)) +
  lsum (nofs (sUnevaluatedItems n)) + lsum (onode (sNot n)) + lsum (olist (sAllOf n)) + lsum (olist (sAnyOf n)) + lsum (olist (sOneOf n)) +
  lsum (omaps (sDefs n)) + lsum (omaps (sDefinitions n)) + lsum (onode (sIf n)) + lsum (onode (sThen n)) + lsum (onode (sElse n)) +
  lsum (map snd (sDependentSchemas n)) + lsum (flat_map ifs (sMergedIf n)) + lsum (sMergedNot n))%nat.
Proof. intros n. unfold wt, subnodes. rewrite !lsum_app. cbn beta. lia. Qed.
(* the sub-schemas, field by field *)
Definition eachField (R : list schemaNode -> Prop) (n : schemaNode) : Prop :=
  R (omaps (sProperties n)) /\ R (nofs (sAdditionalProperties n)) /\ R (omaps (sPatternProperties n)) /\
  R (itemss (sItems n)) /\ R (onode (sContains n)) /\ R (olist (sPrefixItems n)) /\ R (nofs (sAdditionalItems n)) /\
  R (nofs (sUnevaluatedItems n)) /\ R (onode (sNot n)) /\ R (olist (sAllOf n)) /\ R (olist (sAnyOf n)) /\ R (olist (sOneOf n)) /\
  R (omaps (sDefs n)) /\ R (omaps (sDefinitions n)) /\ R (onode (sIf n)) /\ R (onode (sThen n)) /\ R (onode (sElse n)) /\
  R (map snd (sDependentSchemas n)) /\ R (flat_map ifs (sMergedIf n)) /\ R (sMergedNot n).
Definition nrs (l : list schemaNode) : Prop := forall c, In c l -> nr c.
Lemma nrs_app : forall a b, nrs (a ++ b) <-> nrs a /\ nrs b.
Proof.
  intros a b. unfold nrs. split.
  - intros H. split; intros c Hc; apply H; apply in_or_app; auto.
  - intros [Ha Hb] c Hc. apply in_app_or in Hc. destruct Hc; auto.
Qed.
Lemma nr_fields : forall n, nr n <-> sRef n = None /\ eachField nrs n.
Proof.
  intros n. transitivity (sRef n = None /\ nrs (subnodes n)).
  - split; [intros H; split; [apply nr_ref; auto|intros c; apply nr_sub; auto]|intros [A B]; apply nr_intro; auto].
  - unfold subnodes, eachField. rewrite !nrs_app. cbn beta. tauto.
Qed.

Section MergeSize.
Variable E : penv.
Variable rec : list schemaNode -> P schemaNode.
Hypothesis Hrec : forall nodes s m s', nrs nodes -> rec nodes s = Ok (m, s') -> nr m /\ (wt m <= wts nodes)%nat.

Lemma rec_two : forall a b s m s', nr a -> nr b -> rec [a; b] s = Ok (m, s') -> nr m /\ (nsize m < nsize a + nsize b)%nat.
Proof.
  intros a b s m s' Ha Hb H. apply Hrec in H; [|intros c [<-|[<-|[]]]; auto]. destruct H as [H1 H2]. split; auto.
  rewrite !size_wt. unfold wts in H2. cbn [lsz] in H2. lia.
Qed.
(* a field of the result: without references and no larger than the two it comes from *)
Definition fine (r a b : list schemaNode) : Prop := nrs r /\ (lsum r <= lsum a + lsum b)%nat.
Lemma lsum_cons : forall x l, lsum (x :: l) = (nsize x + lsum l)%nat.
Proof. reflexivity. Qed.
Lemma nrs_cons : forall x l, nrs (x :: l) <-> nr x /\ nrs l.
Proof. intros. unfold nrs. split; [intros H; split; [apply H; left; auto|intros; apply H; right; auto]|intros [A B] c [<-|Hc]; auto]. Qed.
Lemma nrs_nil : nrs [].
Proof. intros c []. Qed.
Lemma assign_new : forall k (v : schemaNode) l, assoc k l = None -> lsum (map snd (massign k v l)) = (nsize v + lsum (map snd l))%nat.
Proof.
  induction l as [|[k' v'] l IH]; cbn [massign assoc map]; intros H; auto.
  destruct (String.eqb k k'); [discriminate|]. cbn [map snd]. rewrite !lsum_cons, IH; auto. lia.
Qed.
Lemma assign_old : forall k (v old : schemaNode) l, assoc k l = Some old ->
  (lsum (map snd (massign k v l)) + nsize old = nsize v + lsum (map snd l))%nat /\ In old (map snd l).
Proof.
  induction l as [|[k' v'] l IH]; cbn [massign assoc map]; intros H; [discriminate|].
  destruct (String.eqb k k') eqn:Ek.
  - injection H as ->. cbn [map snd]. rewrite !lsum_cons. split; [lia|left; reflexivity].
  - destruct (IH H) as [I1 I2]. cbn [map snd]. rewrite !lsum_cons. split; [lia|right; auto].
Qed.
Lemma assign_nrs : forall k (v : schemaNode) l, nr v -> nrs (map snd l) -> nrs (map snd (massign k v l)).
Proof.
  induction l as [|[k' v'] l IH]; cbn [massign map snd]; intros Hv Hl; [apply nrs_cons; auto|].
  apply nrs_cons in Hl. destruct Hl. destruct (String.eqb k k'); cbn [map snd]; apply nrs_cons; auto.
Qed.
Lemma mapLoop_fine : forall node merged s r s', nrs (map snd merged) -> nrs (map snd node) ->
  mergeMapLoop rec merged node s = Ok (r, s') -> fine (map snd r) (map snd merged) (map snd node).
Proof.
  induction node as [|[k v] node IH]; intros merged s r s' Hm Hn H; cbn [mergeMapLoop map snd] in *.
  - apply pret_ok in H. destruct H; subst. split; auto. cbn. lia.
  - apply nrs_cons in Hn. destruct Hn as [Hv Hn]. destruct (assoc k merged) as [old|] eqn:A.
    + pinv H. destruct (assign_old k a old merged A) as [Sz Hin]. apply rec_two in H0; auto. destruct H0 as [Ha Sa].
      apply IH in H1; auto using assign_nrs. destruct H1 as [H1 H2]. split; auto. rewrite lsum_cons. lia.
    + apply IH in H; auto using assign_nrs. destruct H as [H1 H2]. split; auto. rewrite assign_new in H2; auto. rewrite lsum_cons. lia.
Qed.
Lemma map_fine : forall a b s r s', nrs (omaps a) -> nrs (omaps b) -> mergeMap rec a b s = Ok (r, s') -> fine (omaps r) (omaps a) (omaps b).
Proof.
  intros a b s r s' Ha Hb H. unfold mergeMap in H. destruct b as [l|].
  - pinvs. cbn [omaps]. replace (omaps a) with (map snd (get_or a [])) in * by (destruct a; reflexivity). eapply mapLoop_fine; eauto.
  - pinvs. split; auto. lia.
Qed.
Lemma prefixLoop_fine : forall merged node s r s', nrs merged -> nrs node -> mergePrefixLoop rec merged node s = Ok (r, s') -> fine r merged node.
Proof.
  induction merged as [|a ra IH]; intros [|b rb] s r s' Hm Hn H; cbn [mergePrefixLoop] in H; pinvs; try (split; auto; cbn; lia).
  apply nrs_cons in Hm, Hn. destruct Hm as [Hma Hm], Hn as [Hna Hn]. apply rec_two in H0; auto. destruct H0 as [H0 S0].
  apply IH in H1; auto. destruct H1 as [H1 S1]. split; [apply nrs_cons; auto|]. rewrite !lsum_cons. lia.
Qed.
Lemma prefix_fine : forall a b s r s', nrs (olist a) -> nrs (olist b) -> mergePrefix rec a b s = Ok (r, s') -> fine (olist r) (olist a) (olist b).
Proof.
  intros a b s r s' Ha Hb H. unfold mergePrefix in H. destruct b as [l|].
  - pinvs. cbn [olist]. replace (olist a) with (get_or a []) in * by (destruct a; reflexivity). eapply prefixLoop_fine; eauto.
  - pinvs. split; auto. lia.
Qed.
Lemma items_fine : forall a b s r s', nrs (itemss a) -> nrs (itemss b) -> mergeItems rec a b s = Ok (r, s') -> fine (itemss r) (itemss a) (itemss b).
Proof.
  intros a b s r s' Ha Hb H. unfold mergeItems in H. destruct b as [[bn bl bd]|]; [|pinvs; split; auto; lia].
  cbn [itNode itDisallow] in H. destruct bn as [b|]; [|pinvs; split; auto; lia].
  assert (Hb' : nr b). { apply Hb. cbn. auto. }
  set (cur := get_or a (mkItems None None false)) in *.
  assert (Hc : itemss a = itemss (Some cur)). { unfold cur. destruct a; reflexivity. }
  rewrite Hc in *. clearbody cur. destruct cur as [cn cl cd]. cbn [itNode itNodes itDisallow] in H.
  destruct (cd || bd). { pinvs. split; [apply nrs_nil|cbn; lia]. }
  destruct cn as [c|].
  - pinvs. cbn [itemss itNode itNodes onode olist app] in *. apply nrs_cons in Ha. destruct Ha as [Hc1 Ha].
    apply rec_two in H0; auto. destruct H0 as [H0 S0]. split; [apply nrs_cons; auto|]. rewrite !lsum_cons. lia.
  - pinvs. cbn [itemss itNode itNodes onode olist app] in *. split; [apply nrs_cons; auto|]. rewrite !lsum_cons. lia.
Qed.
Lemma nof_fine : forall a b s r s', nrs (nofs a) -> nrs (nofs b) -> mergeNof rec a b s = Ok (r, s') -> fine (nofs r) (nofs a) (nofs b).
Proof.
  intros a b s r s' Ha Hb H. unfold mergeNof in H. destruct b as [[bn bf]|]; [|pinvs; split; auto; lia].
  destruct a as [[an af]|]; [|pinvs; split; auto; cbn; lia]. cbn [nofFalse nofSchema] in H.
  destruct af; [pinvs; split; auto; cbn; lia|]. destruct bf; [pinvs; split; auto; cbn; lia|].
  destruct an as [x|], bn as [y|]; pinvs; try (split; auto; cbn; lia).
  cbn [nofs nofSchema onode] in *. apply nrs_cons in Ha, Hb. destruct Ha as [Ha _], Hb as [Hb _]. apply rec_two in H0; auto. destruct H0 as [H0 S0].
  split; [apply nrs_cons; split; auto; apply nrs_nil|]. rewrite !lsum_cons. cbn [lsum lsz]. lia.
Qed.
Lemma ptr_fine : forall a b s r s', nrs (onode a) -> nrs (onode b) -> mergePtr rec a b s = Ok (r, s') -> fine (onode r) (onode a) (onode b).
Proof.
  intros a b s r s' Ha Hb H. unfold mergePtr in H. destruct a as [x|], b as [y|]; pinvs; try (split; auto; cbn; lia).
  cbn [onode] in *. apply nrs_cons in Ha, Hb. destruct Ha as [Ha _], Hb as [Hb _]. apply rec_two in H0; auto. destruct H0 as [H0 S0].
  split; [apply nrs_cons; split; auto; apply nrs_nil|]. rewrite !lsum_cons. cbn [lsum lsz]. lia.
Qed.
Lemma slice_fine : forall a b : option (list schemaNode), nrs (olist a) -> nrs (olist b) -> fine (olist (mergeSlicePtrs a b)) (olist a) (olist b).
Proof.
  intros a b Ha Hb. unfold mergeSlicePtrs. replace (olist a) with (get_or a []) in * by (destruct a; reflexivity).
  replace (olist b) with (get_or b []) in * by (destruct b; reflexivity).
  destruct (get_or a [] ++ get_or b [])%list eqn:El; cbn [olist].
  - split; [apply nrs_nil|cbn; lia].
  - rewrite <- El. split; [apply nrs_app; auto|]. rewrite lsum_app. lia.
Qed.
Lemma nots_fine : forall m n, nrs (onode (sNot m)) -> nrs (sMergedNot m) -> nrs (onode (sNot n)) -> nrs (sMergedNot n) ->
  nrs (onode (sNot (mergeNot m n))) /\ nrs (sMergedNot (mergeNot m n)) /\
  (lsum (onode (sNot (mergeNot m n))) + lsum (sMergedNot (mergeNot m n)) <=
   lsum (onode (sNot m)) + lsum (sMergedNot m) + (lsum (onode (sNot n)) + lsum (sMergedNot n)))%nat.
Proof.
  intros m n A B C D. unfold mergeNot.
  destruct (sNot n) as [x|], (sNot m) as [y|] eqn:Em, (sMergedNot m) as [|p l] eqn:El, (sMergedNot n) as [|q k];
    cbn [sNot sMergedNot set_sNot set_sMergedNot onode]; rewrite ?Em, ?El; cbn [sNot sMergedNot set_sNot set_sMergedNot onode]; rewrite ?Em, ?El;
    cbn [onode app] in *;
    repeat match goal with
    | H : nrs (_ :: _) |- _ => apply nrs_cons in H; destruct H
    end; repeat split; rewrite ?nrs_cons, ?nrs_app, ?nrs_cons, ?nrs_app, ?lsum_cons, ?lsum_app, ?lsum_cons, ?lsum_app, ?lsum_cons;
    auto using nrs_nil; try (cbn [lsum lsz]; lia); intuition (auto using nrs_nil).
Qed.
Lemma ifs_fine : forall path m n, nrs (flat_map ifs (sMergedIf m)) -> nrs (flat_map ifs (sMergedIf n)) -> nrs (onode (sIf n)) -> nrs (onode (sThen n)) ->
  nrs (onode (sElse n)) ->
  nrs (flat_map ifs (sMergedIf (mergeIf path m n))) /\
  (lsum (flat_map ifs (sMergedIf (mergeIf path m n))) <= lsum (flat_map ifs (sMergedIf m)) + lsum (flat_map ifs (sMergedIf n)) +
    lsum (onode (sIf n)) + lsum (onode (sThen n)) + lsum (onode (sElse n)))%nat.
Proof.
  intros path m n A B C D F. unfold mergeIf. cbn [set_sMergedIf sMergedIf]. destruct (sIf n) as [x|] eqn:Ei.
  - rewrite !flat_map_app. cbn [flat_map]. unfold ifs at 3 6. cbn [newIf ifIf ifThen ifElse]. rewrite Ei.
    split; [rewrite !nrs_app; auto 10 using nrs_nil|]. rewrite !lsum_app. cbn [onode]. cbn [lsum lsz]. lia.
  - rewrite !flat_map_app. split; [rewrite !nrs_app; auto|]. rewrite !lsum_app. cbn [onode lsum lsz]. lia.
Qed.
Lemma into_fine : forall m n s m' s', nr m -> nr n -> mergeInto rec m n s = Ok (m', s') -> nr m' /\ (wt m' <= wt m + wt n)%nat.
Proof.
  intros m n s m' s' Hm Hn H. apply nr_fields in Hm, Hn. destruct Hm as [Rm Hm], Hn as [Rn Hn].
  unfold eachField in Hm, Hn.
  destruct Hm as (M1&M2&M3&M4&M5&M6&M7&M8&M9&M10&M11&M12&M13&M14&M15&M16&M17&M18&M19&M20).
  destruct Hn as (N1&N2&N3&N4&N5&N6&N7&N8&N9&N10&N11&N12&N13&N14&N15&N16&N17&N18&N19&N20).
  fields H. clear H9 Hs1.
  apply map_fine in H1; auto. apply nof_fine in H2; auto. apply map_fine in H3; auto. apply prefix_fine in H4; auto. apply items_fine in H5; auto.
  apply nof_fine in H6; auto. apply nof_fine in H7; auto. apply ptr_fine in H8; auto.
  pose proof (slice_fine _ _ M10 N10) as K1. pose proof (slice_fine _ _ M11 N11) as K2. pose proof (slice_fine _ _ M12 N12) as K3.
  pose proof (nots_fine m n M9 M20 N9 N20) as K4. pose proof (ifs_fine (pPath s9) m n M19 N19 N15 N16 N17) as K5.
  destruct H1 as [P1 Q1], H2 as [P2 Q2], H3 as [P3 Q3], H4 as [P4 Q4], H5 as [P5 Q5], H6 as [P6 Q6], H7 as [P7 Q7], H8 as [P8 Q8],
    K1 as [P9 Q9], K2 as [P10 Q10], K3 as [P11 Q11], K4 as (P12 & P13 & Q12), K5 as [P14 Q14].
  rewrite <- Ent in *. rewrite <- Emn in *. rewrite <- Emi in *.
  split.
  - apply nr_fields. unfold eachField. subst m'. cbn [sRef sProperties sAdditionalProperties sPatternProperties sItems sContains sPrefixItems
      sAdditionalItems sUnevaluatedItems sNot sAllOf sAnyOf sOneOf sDefs sDefinitions sIf sThen sElse sDependentSchemas sMergedIf sMergedNot].
    rewrite Rn, Rm. cbn [getPtr]. split; [reflexivity|]. repeat (split; [assumption|]). assumption.
  - rewrite (wt_eq m'), (wt_eq m), (wt_eq n). subst m'. cbn [sRef sProperties sAdditionalProperties sPatternProperties sItems sContains sPrefixItems
      sAdditionalItems sUnevaluatedItems sNot sAllOf sAnyOf sOneOf sDefs sDefinitions sIf sThen sElse sDependentSchemas sMergedIf sMergedNot].
    clear -Q1 Q2 Q3 Q4 Q5 Q6 Q7 Q8 Q9 Q10 Q11 Q12 Q14. lia.
Qed.
End MergeSize.

Lemma one_free : forall E rec fuel m n s, sRef n = None -> mergeOne E rec fuel m n s = mergeInto rec m n s.
Proof.
  intros E rec fuel m n s H. unfold mergeOne, resolveNodeRef. rewrite H. unfold pbind at 1, pret at 1. unfold pbind.
  destruct (sAllOf n); unfold pret at 1; destruct (mergeInto rec m n s) as [[a b]| |]; reflexivity.
Qed.
Lemma loop_fine : forall E rec f nodes m s m' s',
  (forall nodes s m s', nrs nodes -> rec nodes s = Ok (m, s') -> nr m /\ (wt m <= wts nodes)%nat) ->
  nr m -> nrs nodes -> mergeLoop E rec f m nodes s = Ok (m', s') -> nr m' /\ (wt m' <= wt m + wts nodes)%nat.
Proof.
  induction nodes as [|n r IH]; intros m s m' s' Hrec Hm Hn H; cbn [mergeLoop] in H.
  - pinvs. split; auto. lia.
  - apply nrs_cons in Hn. destruct Hn as [Hn Hr]. pinv H. rewrite one_free in H0; [|apply nr_ref; auto].
    apply (into_fine rec Hrec) in H0; auto. destruct H0 as [Ha Sa]. apply IH in H1; auto. destruct H1 as [H1 S1]. split; auto.
    unfold wts in *. cbn [lsz]. lia.
Qed.
Lemma residual : forall m l, nr m -> sAllOf m = Some l -> nrs (l ++ [set_sAllOf None m]) /\
  (wts (l ++ [set_sAllOf None m]) + List.length l = wt m)%nat.
Proof.
  intros m l Hm A.
  assert (L : forall l, (wts l + List.length l = lsum l)%nat).
  { induction l0; auto. unfold wts in *. cbn [lsz List.length]. rewrite lsum_cons, size_wt. lia. }
  split.
  - apply nrs_app. apply nr_fields in Hm. destruct Hm as [R Hm]. split.
    + unfold eachField in Hm. rewrite A in Hm. cbn [olist] in Hm. tauto.
    + apply nrs_cons. split; [|apply nrs_nil]. apply nr_fields. split; [exact R|]. unfold eachField in *.
      cbn [set_sAllOf sProperties sAdditionalProperties sPatternProperties sItems sContains sPrefixItems
      sAdditionalItems sUnevaluatedItems sNot sAllOf sAnyOf sOneOf sDefs sDefinitions sIf sThen sElse sDependentSchemas sMergedIf sMergedNot].
      cbn [olist]. pose proof nrs_nil. tauto.
  - rewrite wts_app. unfold wts at 2. cbn [lsz]. rewrite (wt_eq m), (wt_eq (set_sAllOf None m)).
    cbn [set_sAllOf sProperties sAdditionalProperties sPatternProperties sItems sContains sPrefixItems
      sAdditionalItems sUnevaluatedItems sNot sAllOf sAnyOf sOneOf sDefs sDefinitions sIf sThen sElse sDependentSchemas sMergedIf sMergedNot].
    rewrite A. cbn [olist]. specialize (L l). change (lsum []) with O. lia.
Qed.
Lemma flatten_fine : forall E rec f m s m' s',
  (forall nodes s m s', nrs nodes -> rec nodes s = Ok (m, s') -> nr m /\ (wt m <= wts nodes)%nat) ->
  nr m -> flatten E rec f m s = Ok (m', s') -> nr m' /\ (wt m' <= wt m)%nat.
Proof.
  induction f as [|f IH]; intros m s m' s' Hrec Hm H; [discriminate|]. cbn [flatten] in H.
  destruct (sAllOf m) as [[|x l]|] eqn:A; [pinvs; auto| |pinvs; auto].
  pinv H. destruct (pxMaxDepth E <? pDepth a + 1); [pinvs; auto|]. 
  apply pbind_ok in H1. destruct H1 as (u1 & t1 & _ & H1). apply pbind_ok in H1. destruct H1 as (m1 & t2 & H2 & H1).
  apply pbind_ok in H1. destruct H1 as (u3 & t3 & _ & H1). apply pbind_ok in H1. destruct H1 as (u4 & t4 & _ & H5).
  destruct (residual m (x :: l) Hm A) as [R1 R2]. apply Hrec in H2; auto. destruct H2 as [H2 S2].
  apply IH in H5; auto. destruct H5 as [H5 S5]. split; auto. lia.
Qed.
Theorem merge_fine : forall E f nodes s m s', nrs nodes -> merge E f nodes s = Ok (m, s') -> nr m /\ (wt m <= wts nodes)%nat.
Proof.
  induction f as [|f IH]; intros nodes s m s' Hn H; [discriminate|]. cbn [merge] in H. pinv H.
  apply loop_fine in H0; auto using nr_empty. destruct H0 as [H0 S0]. apply flatten_fine in H1; auto. destruct H1 as [H1 S1]. split; auto.
  change (wt emptyNode) with O in S0. lia.
Qed.

(* ------------------------------------------------------------------ ending *)
Definition grows {A} (m : nat -> P A) : Prop := forall f f', (f <= f')%nat -> below (m f) (m f').
Definition tot {A} (m : nat -> P A) (s : pst) : Prop := exists f, m f s <> Timeout.

Lemma tot_le : forall A (m m' : nat -> P A) s, (forall f, exists f', below (m f) (m' f')) -> tot m s -> tot m' s.
Proof. intros A m m' s H [f Hf]. destruct (H f) as [f' Hb]. exists f'. destruct (Hb s); congruence. Qed.
Lemma tot_const : forall A (m : P A) s, m s <> Timeout -> tot (fun _ => m) s.
Proof. intros A m s H. exists O. exact H. Qed.
Lemma tot_bind : forall A B (m : nat -> P A) (k : nat -> A -> P B) s, grows m -> (forall a, grows (fun f => k f a)) -> tot m s ->
  (forall f a s1, m f s = Ok (a, s1) -> tot (fun f => k f a) s1) -> tot (fun f => pbind (m f) (k f)) s.
Proof.
  intros A B m k s Gm Gk [f Hf] Hk. destruct (m f s) as [[a s1]|w|] eqn:Em; [|exists f; unfold pbind; rewrite Em; discriminate|congruence].
  destruct (Hk _ _ _ Em) as [f' Hf']. exists (Nat.max f f'). unfold pbind.
  destruct (Gm f (Nat.max f f') (Nat.le_max_l f f') s) as [H|H]; [congruence|]. rewrite <- H, Em.
  destruct (Gk a f' (Nat.max f f') (Nat.le_max_r f f') s1) as [H1|H1]; congruence.
Qed.
Lemma grows_const : forall A (m : P A), grows (fun _ => m).
Proof. intros A m f f' _. apply bl_refl. Qed.
Lemma grows_bind : forall A B (m : nat -> P A) (k : nat -> A -> P B), grows m -> (forall a, grows (fun f => k f a)) -> grows (fun f => pbind (m f) (k f)).
Proof. intros A B m k Gm Gk f f' H. apply bl_bind; [apply Gm; auto|intros; apply (Gk a); auto]. Qed.
Lemma grows_merge : forall E l, grows (fun f => merge E f l).
Proof. intros E l f f' H. apply bl_merge; auto. Qed.

Section MergeEnds.
Variable E : penv.
Variable T : nat.
Hypothesis recT : forall nodes s, nrs nodes -> (wts nodes < T)%nat -> tot (fun f => merge E f nodes) s.

Lemma two_tot : forall a b s, nr a -> nr b -> (nsize a + nsize b <= T)%nat -> tot (fun f => merge E f [a; b]) s.
Proof. intros a b s Ha Hb H. apply recT; [intros c [<-|[<-|[]]]; auto|]. rewrite !size_wt in H. unfold wts. cbn [lsz]. lia. Qed.
Lemma two_fine : forall f a b s m s', nr a -> nr b -> merge E f [a; b] s = Ok (m, s') -> nr m /\ (nsize m < nsize a + nsize b)%nat.
Proof. intros f a b s m s' Ha Hb H. eapply (rec_two (merge E f) (merge_fine E f)); eauto. Qed.
Lemma mapLoop_tot : forall node merged s, nrs (map snd merged) -> nrs (map snd node) -> (lsum (map snd merged) + lsum (map snd node) <= T)%nat ->
  tot (fun f => mergeMapLoop (merge E f) merged node) s.
Proof.
  induction node as [|[k v] node IH]; intros merged s Hm Hn HT; cbn [mergeMapLoop map snd] in *.
  - apply tot_const. discriminate.
  - apply nrs_cons in Hn. destruct Hn as [Hv Hn]. rewrite lsum_cons in HT. destruct (assoc k merged) as [old|] eqn:A.
    + destruct (assign_old k v old merged A) as [_ Hin].
      apply (tot_bind _ _ (fun f => merge E f [old; v]) (fun f x => mergeMapLoop (merge E f) (massign k x merged) node)).
      * apply grows_merge.
      * intros a f f' H. apply bl_mergeMapLoop. intros. apply bl_merge; auto.
      * apply two_tot; auto. apply lsum_In in Hin. lia.
      * intros f a s1 H. destruct (assign_old k a old merged A) as [Sz _]. apply two_fine in H; auto. destruct H as [Ha Sa].
        apply IH; auto using assign_nrs. lia.
    + apply IH; auto using assign_nrs. rewrite assign_new; auto. lia.
Qed.
Lemma map_tot : forall a b s, nrs (omaps a) -> nrs (omaps b) -> (lsum (omaps a) + lsum (omaps b) <= T)%nat -> tot (fun f => mergeMap (merge E f) a b) s.
Proof.
  intros a b s Ha Hb H. unfold mergeMap. destruct b as [l|]; [|apply tot_const; discriminate].
  replace (omaps a) with (map snd (get_or a [])) in * by (destruct a; reflexivity).
  apply (tot_bind _ _ (fun f => mergeMapLoop (merge E f) (get_or a []) l) (fun _ r => pret (Some r))).
  - intros f f' Hf. apply bl_mergeMapLoop. intros. apply bl_merge; auto.
  - intros. apply grows_const.
  - apply mapLoop_tot; auto.
  - intros. apply tot_const. discriminate.
Qed.
Lemma prefixLoop_tot : forall merged node s, nrs merged -> nrs node -> (lsum merged + lsum node <= T)%nat ->
  tot (fun f => mergePrefixLoop (merge E f) merged node) s.
Proof.
  induction merged as [|a ra IH]; intros [|b rb] s Hm Hn HT; cbn [mergePrefixLoop]; try (apply tot_const; discriminate).
  apply nrs_cons in Hm, Hn. destruct Hm as [Hma Hm], Hn as [Hna Hn]. rewrite !lsum_cons in HT.
  apply (tot_bind _ _ (fun f => merge E f [a; b]) (fun f x => let* r := mergePrefixLoop (merge E f) ra rb in pret (x :: r))).
  - apply grows_merge.
  - intros. apply (grows_bind _ _ (fun f => mergePrefixLoop (merge E f) ra rb) (fun _ r => pret (a0 :: r))); [|intros; apply grows_const].
    intros f f' Hf. apply bl_mergePrefixLoop. intros. apply bl_merge; auto.
  - apply two_tot; auto. lia.
  - intros. apply (tot_bind _ _ (fun f => mergePrefixLoop (merge E f) ra rb) (fun _ r => pret (a0 :: r))).
    + intros g g' Hf. apply bl_mergePrefixLoop. intros. apply bl_merge; auto.
    + intros; apply grows_const.
    + apply IH; auto. lia.
    + intros. apply tot_const. discriminate.
Qed.
Lemma prefix_tot : forall a b s, nrs (olist a) -> nrs (olist b) -> (lsum (olist a) + lsum (olist b) <= T)%nat -> tot (fun f => mergePrefix (merge E f) a b) s.
Proof.
  intros a b s Ha Hb H. unfold mergePrefix. destruct b as [l|]; [|apply tot_const; discriminate].
  replace (olist a) with (get_or a []) in * by (destruct a; reflexivity).
  apply (tot_bind _ _ (fun f => mergePrefixLoop (merge E f) (get_or a []) l) (fun _ r => pret (Some r))).
  - intros f f' Hf. apply bl_mergePrefixLoop. intros. apply bl_merge; auto.
  - intros. apply grows_const.
  - apply prefixLoop_tot; auto.
  - intros. apply tot_const. discriminate.
Qed.
Lemma pair_tot : forall A a b (k : schemaNode -> A) s, nr a -> nr b -> (nsize a + nsize b <= T)%nat ->
  tot (fun f => let* x := merge E f [a; b] in pret (k x)) s.
Proof.
  intros. apply (tot_bind _ _ (fun f => merge E f [a; b]) (fun _ x => pret (k x))).
  - apply grows_merge.
  - intros. apply grows_const.
  - apply two_tot; auto.
  - intros. apply tot_const. discriminate.
Qed.
Lemma items_tot : forall a b s, nrs (itemss a) -> nrs (itemss b) -> (lsum (itemss a) + lsum (itemss b) <= T)%nat -> tot (fun f => mergeItems (merge E f) a b) s.
Proof.
  intros a b s Ha Hb H. unfold mergeItems. destruct b as [[bn bl bd]|]; [|apply tot_const; discriminate].
  cbn [itNode itDisallow]. destruct bn as [b|]; [|apply tot_const; discriminate].
  set (cur := get_or a (mkItems None None false)) in *.
  assert (Hc : itemss a = itemss (Some cur)). { unfold cur. destruct a; reflexivity. }
  rewrite Hc in *. clearbody cur. destruct cur as [cn cl cd]. cbn [itNode itNodes itDisallow].
  destruct (cd || bd); [apply tot_const; discriminate|]. destruct cn as [c|]; [|apply tot_const; discriminate].
  cbn [itemss itNode itNodes onode olist app] in *. apply nrs_cons in Ha, Hb. destruct Ha as [Ha _], Hb as [Hb _]. rewrite !lsum_cons in H.
  apply pair_tot; auto. lia.
Qed.
Lemma nof_tot : forall a b s, nrs (nofs a) -> nrs (nofs b) -> (lsum (nofs a) + lsum (nofs b) <= T)%nat -> tot (fun f => mergeNof (merge E f) a b) s.
Proof.
  intros a b s Ha Hb H. unfold mergeNof. destruct b as [[bn bf]|]; [|apply tot_const; discriminate].
  destruct a as [[an af]|]; [|apply tot_const; discriminate]. cbn [nofFalse nofSchema].
  destruct af; [apply tot_const; discriminate|]. destruct bf; [apply tot_const; discriminate|].
  destruct an as [x|], bn as [y|]; try (apply tot_const; discriminate).
  cbn [nofs nofSchema onode] in *. apply nrs_cons in Ha, Hb. destruct Ha as [Ha _], Hb as [Hb _]. rewrite !lsum_cons in H. apply pair_tot; auto. lia.
Qed.
Lemma ptr_tot : forall a b s, nrs (onode a) -> nrs (onode b) -> (lsum (onode a) + lsum (onode b) <= T)%nat -> tot (fun f => mergePtr (merge E f) a b) s.
Proof.
  intros a b s Ha Hb H. unfold mergePtr. destruct a as [x|], b as [y|]; try (apply tot_const; discriminate).
  cbn [onode] in *. apply nrs_cons in Ha, Hb. destruct Ha as [Ha _], Hb as [Hb _]. rewrite !lsum_cons in H. apply pair_tot; auto. lia.
Qed.
Lemma warnAll_ends : forall l s, warnAll l s <> Timeout.
Proof. induction l; intros s; cbn [warnAll]; [discriminate|]. unfold pbind, warnMerge, addErrSub, pmod. apply IHl. Qed.
Lemma grow_part : forall A (m : (list schemaNode -> P schemaNode) -> P A),
  (forall rec rec', (forall l, below (rec l) (rec' l)) -> below (m rec) (m rec')) -> grows (fun f => m (merge E f)).
Proof. intros A m H f f' Hf. apply H. intros. apply bl_merge; auto. Qed.

#[local] Hint Resolve bl_merge bl_mergeMap bl_mergePrefix bl_mergeItems bl_mergeNof bl_mergePtr : mono.
Lemma into_tot : forall m n s, nr m -> nr n -> (wt m + wt n <= T)%nat -> tot (fun f => mergeInto (merge E f) m n) s.
Proof.
  intros m n s Hm Hn HT. apply nr_fields in Hm, Hn. destruct Hm as [Rm Hm], Hn as [Rn Hn]. unfold eachField in Hm, Hn.
  destruct Hm as (M1&M2&M3&M4&M5&M6&M7&M8&M9&M10&M11&M12&M13&M14&M15&M16&M17&M18&M19&M20).
  destruct Hn as (N1&N2&N3&N4&N5&N6&N7&N8&N9&N10&N11&N12&N13&N14&N15&N16&N17&N18&N19&N20).
  rewrite (wt_eq m), (wt_eq n) in HT.
  unfold mergeInto. set (m0 := set_sType (mergeTypes (sType m) (sType n)) m).
  assert (X : let m' := fst (mergeEnum m0 n) in
  sProperties m' = sProperties m /\ sAdditionalProperties m' = sAdditionalProperties m /\ sPatternProperties m' = sPatternProperties m /\
  sPrefixItems m' = sPrefixItems m /\ sItems m' = sItems m /\ sAdditionalItems m' = sAdditionalItems m /\ sUnevaluatedItems m' = sUnevaluatedItems m /\
  sContains m' = sContains m).
  { destruct (mergeEnum_shape m0 n) as (en & co & H). rewrite H. repeat split. }
  destruct (mergeEnum m0 n) as [m1 e]. cbn [fst] in X. destruct X as (X1 & X2 & X3 & X4 & X5 & X6 & X7 & X8). clear m0.
  rewrite X1, X2, X3, X4, X5, X6, X7, X8. clear X1 X2 X3 X4 X5 X6 X7 X8.
  apply tot_bind; [intros f f' Hf; mono|intros a f f' Hf; mono|apply tot_const; destruct e; discriminate|intros _ _ s1 _].
  apply tot_bind; [intros f f' Hf; mono|intros a f f' Hf; mono|apply map_tot; auto; lia|intros _ v1 s2 _].
  apply tot_bind; [intros f f' Hf; mono|intros a f f' Hf; mono|apply nof_tot; auto; lia|intros _ v2 s3 _].
  apply tot_bind; [intros f f' Hf; mono|intros a f f' Hf; mono|apply map_tot; auto; lia|intros _ v3 s4 _].
  apply tot_bind; [intros f f' Hf; mono|intros a f f' Hf; mono|apply prefix_tot; auto; lia|intros _ v4 s5 _].
  apply tot_bind; [intros f f' Hf; mono|intros a f f' Hf; mono|apply items_tot; auto; lia|intros _ v5 s6 _].
  apply tot_bind; [intros f f' Hf; mono|intros a f f' Hf; mono|apply nof_tot; auto; lia|intros _ v6 s7 _].
  apply tot_bind; [intros f f' Hf; mono|intros a f f' Hf; mono|apply nof_tot; auto; lia|intros _ v7 s8 _].
  apply tot_bind; [intros f f' Hf; mono|intros a f f' Hf; mono|apply ptr_tot; auto; lia|intros _ v8 s9 _].
  apply tot_const. unfold pbind at 1, pget at 1. intros H. apply pbind_timeout in H. destruct H as [H|(a & s10 & _ & H)].
  - exact (warnAll_ends _ _ H).
  - discriminate H.
Qed.
Lemma loop_tot : forall nodes m s, nr m -> nrs nodes -> (wt m + wts nodes <= T)%nat -> tot (fun f => mergeLoop E (merge E f) f m nodes) s.
Proof.
  induction nodes as [|n r IH]; intros m s Hm Hn HT; cbn [mergeLoop]; [apply tot_const; discriminate|].
  apply nrs_cons in Hn. destruct Hn as [Hn Hr]. unfold wts in HT. cbn [lsz] in HT. fold (wts r) in HT. apply tot_bind.
  - intros f f' Hf. apply bl_mergeOne; auto. intros. apply bl_merge; auto.
  - intros a f f' Hf. apply bl_mergeLoop; auto. intros. apply bl_merge; auto.
  - destruct (into_tot m n s Hm Hn) as [f Hf]; [lia|]. exists f. rewrite one_free; auto. apply nr_ref; auto.
  - intros f a s1 H. rewrite one_free in H; [|apply nr_ref; auto]. apply (into_fine _ (merge_fine E f)) in H; auto. destruct H as [H1 H2].
    apply IH; auto. lia.
Qed.
Lemma flatten_tot : forall k m s, nr m -> (wt m <= k)%nat -> (k <= T)%nat -> tot (fun f => flatten E (merge E f) f m) s.
Proof.
  induction k as [k IH] using lt_wf_ind. intros m s Hm Hk HT.
  apply (tot_le _ (fun f => flatten E (merge E (S f)) (S f) m)); [intros f; exists (S f); apply bl_refl|]. cbn [flatten].
  destruct (sAllOf m) as [[|x l]|] eqn:A; try (apply tot_const; discriminate).
  destruct (residual m (x :: l) Hm A) as [R1 R2]. cbn [List.length] in R2.
  assert (G : forall m', grows (fun f => flatten E (merge E (S f)) f m')).
  { intros m' f f' Hf. apply bl_flatten; auto. intros. apply bl_merge; lia. }
  assert (GM : grows (fun f => merge E (S f) ((x :: l) ++ [set_sAllOf None m]))).
  { intros f f' Hf. apply bl_merge; lia. }
  assert (GK : forall a, grows (fun f => let* s' := pget in run* pmod (withDepth (pDepth s' - 1)) in flatten E (merge E (S f)) f a)).
  { intros a. apply grows_bind; [apply grows_const|]. intros. apply grows_bind; [apply grows_const|]. intros. apply G. }
  apply tot_bind; [apply grows_const| |apply tot_const; discriminate|].
  { intros a. destruct (pxMaxDepth E <? pDepth a + 1); [apply grows_const|]. apply grows_bind; [apply grows_const|].
    intros _. apply grows_bind; auto. }
  intros _ a s1 _. destruct (pxMaxDepth E <? pDepth a + 1); [apply tot_const; discriminate|].
  apply tot_bind; [apply grows_const| |apply tot_const; discriminate|]. { intros _. apply grows_bind; auto. }
  intros _ _ s2 _. apply tot_bind; auto.
  { apply (tot_le _ (fun f => merge E f ((x :: l) ++ [set_sAllOf None m]))); [|apply recT; auto; lia].
    intros f. exists f. apply bl_merge. lia. }
  intros f m' s3 Hm'. apply merge_fine in Hm'; auto. destruct Hm' as [Hm' S'].
  apply tot_bind; [apply grows_const| |apply tot_const; discriminate|]. { intros. apply grows_bind; [apply grows_const|intros; apply G]. }
  intros _ s4 s5 _. apply tot_bind; [apply grows_const|intros; apply G|apply tot_const; discriminate|].
  intros _ _ s6 _. apply (tot_le _ (fun f => flatten E (merge E f) f m')).
  { intros g. exists g. apply bl_flatten; auto. intros. apply bl_merge. lia. }
  apply (IH (wt m')); auto; lia.
Qed.
End MergeEnds.
#[export] Hint Resolve bl_merge : mono.

Theorem merge_tot : forall E nodes s, nrs nodes -> tot (fun f => merge E f nodes) s.
Proof.
  intros E nodes s Hn. remember (wts nodes) as T eqn:ET. revert nodes s Hn ET. induction T as [T IH] using lt_wf_ind. intros nodes s Hn ET.
  assert (recT : forall nodes s, nrs nodes -> (wts nodes < T)%nat -> tot (fun f => merge E f nodes) s). { intros; eapply IH; eauto. }
  apply (tot_le _ (fun f => merge E (S f) nodes)); [intros f; exists (S f); apply bl_refl|]. cbn [merge]. apply tot_bind.
  - intros f f' Hf. apply bl_mergeLoop; auto. intros. apply bl_merge; auto.
  - intros a f f' Hf. apply bl_flatten; auto. intros. apply bl_merge; auto.
  - apply (loop_tot E T); auto using nr_empty. change (wt emptyNode) with O. lia.
  - intros f m s1 H. apply loop_fine in H; auto using nr_empty; [|exact (merge_fine E f)]. destruct H as [H1 H2]. change (wt emptyNode) with O in H2.
    apply (flatten_tot E T recT (wt m)); auto. lia.
Qed.

(* ------------------------------------------------------------------ programs that never run out of fuel *)
Definition nto {A} (m : P A) : Prop := forall s, m s <> Timeout.
Lemma nto_bind : forall A B (m : P A) (k : A -> P B), nto m -> (forall a, nto (k a)) -> nto (pbind m k).
Proof. intros A B m k Hm Hk s H. apply pbind_timeout in H. destruct H as [H|(a & s1 & _ & H)]; [exact (Hm _ H)|exact (Hk _ _ H)]. Qed.
Lemma nto_pret : forall A (a : A), nto (pret a). Proof. intros A a s H. discriminate. Qed.
Lemma nto_pget : nto pget. Proof. intros s H. discriminate. Qed.
Lemma nto_pmod : forall f, nto (pmod f). Proof. intros f s H. discriminate. Qed.
Lemma nto_panic : forall A w, nto (@plift A (Panic w)). Proof. intros A w s H. discriminate. Qed.
Lemma nto_addErr : forall t, nto (addErr t). Proof. intros t s H. discriminate. Qed.
Lemma nto_addErrSub : forall p t, nto (addErrSub p t). Proof. intros p t s H. discriminate. Qed.
Lemma nto_pushPath : forall p, nto (pushPath p). Proof. intros p s H. discriminate. Qed.
Lemma nto_popPath : forall p, nto (popPath p). Proof. intros p s H. discriminate. Qed.
Lemma nto_if : forall A (b : bool) (m k : P A), nto m -> nto k -> nto (if b then m else k).
Proof. intros A [|] m k Hm Hk; auto. Qed.
Create HintDb nto discriminated.
#[export] Hint Constants Opaque : nto.
#[export] Hint Variables Opaque : nto.
#[export] Hint Resolve nto_pret nto_pget nto_pmod nto_panic nto_addErr nto_addErrSub nto_pushPath nto_popPath : nto.
Ltac notime :=
  repeat first
  [ progress (intros)
  | solve [auto with nto nocore]
  | match goal with
    | |- nto (pbind _ _) => apply nto_bind
    | |- nto (if ?x then _ else _) => simple apply nto_if
    | |- nto (match ?x with _ => _ end) => destruct x
    | |- nto (let '(_, _) := ?x in _) => destruct x
    end ].
Lemma nto_warnField : forall f, nto (warnField f). Proof. intros. apply nto_addErrSub. Qed.
Lemma nto_warnIf : forall b f, nto (warnIf b f). Proof. intros. unfold warnIf. destruct b; [apply nto_warnField|apply nto_pret]. Qed.
#[export] Hint Resolve nto_warnField nto_warnIf : nto.
Lemma nto_boundsInt : forall f a b c d, nto (resolveBoundsInt f a b c d). Proof. intros. unfold resolveBoundsInt. notime. Qed.
Lemma nto_resolveBool : forall a b, nto (resolveBool a b). Proof. intros. unfold resolveBool. notime. Qed.
#[export] Hint Resolve nto_boundsInt nto_resolveBool : nto.
Lemma nto_notString : forall E st n x, nto (notApplyString E st n x). Proof. intros. unfold notApplyString. destruct st. notime. Qed.
Lemma nto_notNumber : forall st n x, nto (notApplyNumber st n x).
Proof. intros. unfold notApplyNumber. destruct st as [m c]. cbv zeta.
  destruct (boundsFloat _ _ _ _ _ _ _ _ _) as [[[[mn mx] amn] amx] w]. apply nto_bind; [auto with nto nocore|]. intros _.
  simple apply nto_if; [auto with nto nocore|]. do 4 (simple apply nto_if; [notime|]). apply nto_pret.
Qed.
Lemma nto_notEnum : forall st n x, nto (notApplyEnum st n x). Proof. intros. unfold notApplyEnum. destruct st. notime. Qed.
Lemma nto_notConst : forall st n x, nto (notApplyConst st n x). Proof. intros. unfold notApplyConst. destruct st. notime. Qed.
Lemma nto_warnUnsupported : forall x, nto (warnUnsupported x). Proof. intros. unfold warnUnsupported. notime. Qed.
Lemma nto_notType : forall m n x, nto (notApplyType m n x). Proof. intros. unfold notApplyType. notime. Qed.
#[export] Hint Resolve nto_notString nto_notNumber nto_notEnum nto_notConst nto_warnUnsupported nto_notType : nto.
Lemma tot_nto : forall A (m : P A) s, nto m -> tot (fun _ => m) s.
Proof. intros A m s H. apply tot_const. apply H. Qed.

(* ------------------------------------------------------------------ negations: the result has no references *)
Section NotFine.
Variable E : penv.
Variable rec : schemaNode -> schemaNode -> P nstate.
Hypothesis Hrec : forall n x s st s', nr n -> nr x -> rec n x s = Ok (st, s') -> nr (fst st).

Lemma nr_constraints : forall c n, nr n -> nr (set_sConstraints c n).
Proof. intros c n H. apply nr_fields in H. apply nr_fields. exact H. Qed.
Lemma notSub_fine : forall sc n x s m s', nr n -> nr x -> notSub rec sc n x s = Ok (m, s') -> nr m.
Proof.
  intros sc n x s m s' Hn Hx H. unfold notSub in H.
  apply pbind_ok in H. destruct H as (u1 & t1 & _ & H). apply pbind_ok in H. destruct H as ([m0 c0] & t2 & H2 & H).
  apply pbind_ok in H. destruct H as (u3 & t3 & _ & H). apply pret_ok in H. destruct H as [-> _]. apply nr_constraints.
  apply Hrec in H2; auto.
Qed.
Lemma nr_or : forall o, nrs (onode o) -> nr (get_or o emptyNode).
Proof. intros [n|] H; cbn [get_or]; [apply H; left; auto|apply nr_empty]. Qed.
Lemma notSubPtr_fine : forall sc n x s m s', nrs (onode n) -> nrs (onode x) -> notSubPtr rec sc n x s = Ok (m, s') -> nrs (onode m).
Proof.
  intros sc n x s m s' Hn Hx H. unfold notSubPtr in H.
  destruct n, x; pinvs; try apply nrs_nil; apply nrs_cons; (split; [eapply notSub_fine; [| |exact H0]; auto using nr_or|apply nrs_nil]).
Qed.
Lemma notNof_fine : forall sc n x s m s', nrs (nofs n) -> nrs (nofs x) -> notNof rec sc n x s = Ok (m, s') -> nrs (nofs m).
Proof.
  intros sc n x s m s' Hn Hx H. unfold notNof in H.
  assert (G : (let n := get_or n (mkNOF None false) in let x := get_or x (mkNOF None false) in
    if nofFalse n then run* warnIf (nofFalse x) "" in pret (Some n)
      else let* m := notSub rec sc (get_or (nofSchema n) emptyNode) (get_or (nofSchema x) emptyNode) in
           pret (Some (mkNOF (Some m) false))) s = Ok (m, s') -> nrs (nofs m)).
  { intros G. cbn zeta in G. destruct (nofFalse (get_or n _)) eqn:F.
    - pinv G. apply pret_ok in H1. destruct H1 as [-> ->]. destruct n as [n|]; [exact Hn|discriminate F].
    - pinv G. apply pret_ok in H1. destruct H1 as [-> ->]. cbn [nofs nofSchema onode]. apply nrs_cons. split; [|apply nrs_nil].
      eapply notSub_fine; [| |exact H0]; apply nr_or.
      + destruct n as [[[]]|]; exact Hn || apply nrs_nil.
      + destruct x as [[[]]|]; exact Hx || apply nrs_nil. }
  destruct n, x; auto. apply pret_ok in H. destruct H as [-> _]. apply nrs_nil.
Qed.
Lemma itemss_node : forall (o : option (itemsData schemaNode)) d, nrs (itemss o) -> nr d -> nr (match o with Some it => get_or (itNode it) d | None => d end).
Proof. intros [[[a|] l b]|] d H Hd; cbn [itNode get_or]; auto. apply H. left. auto. Qed.
Lemma notItems_fine : forall n x s m s', nrs (itemss n) -> nrs (itemss x) -> notItems rec n x s = Ok (m, s') -> nrs (itemss m).
Proof.
  intros n x s m s' Hn Hx H. unfold notItems in H. destruct x as [x|]; [|apply pret_ok in H; destruct H as [-> _]; exact Hn].
  assert (Hn' : nrs (itemss (Some (get_or n (mkItems None None false))))) by (destruct n; [exact Hn|apply nrs_nil]).
  set (n' := get_or n _) in *. clearbody n'.
  destruct (itDisallow n' && itDisallow x). { pinv H. apply pret_ok in H1. destruct H1 as [-> _]. exact Hn'. }
  destruct (itDisallow n'). { apply pret_ok in H. destruct H as [-> _]. exact Hn'. }
  pinv H. clear H0.
  assert (A : nr (get_or (itNode n') emptyNode)) by (apply (itemss_node (Some n') emptyNode); auto using nr_empty).
  assert (B : nr (get_or (itNode x) emptyNode)) by (apply (itemss_node (Some x) emptyNode); auto using nr_empty).
  destruct (itNode n'), (itNode x); cbn [get_or] in *; pinvs; try apply nrs_nil; apply nrs_cons;
    (split; [match goal with X : notSub _ _ _ _ _ = Ok _ |- _ => eapply notSub_fine; [| |exact X]; auto end|apply nrs_nil]).
Qed.
Lemma notPrefixLoop_fine : forall n i d x s r s', nr d -> nrs n -> nrs x -> notPrefixLoop rec i d n x s = Ok (r, s') -> nrs r.
Proof.
  induction n as [|a n IH]; intros i d x s r s' Hd Hn Hx H.
  - revert i s r s' H. induction x as [|b x IHx]; intros i s r s' H.
    + apply pret_ok in H. destruct H as [-> _]. apply nrs_nil.
    + cbn [notPrefixLoop] in H. pinvs. apply nrs_cons in Hx. destruct Hx as [Hb Hx]. apply nrs_cons. split; [eapply notSub_fine; [| |exact H0]; auto|].
      destruct x; eapply (IHx Hx (i + 1)); cbn [notPrefixLoop]; exact H1.
  - apply nrs_cons in Hn. destruct Hn as [Ha Hn]. destruct x as [|b x]; cbn [notPrefixLoop] in H; pinvs; apply nrs_cons.
    + split; [eapply notSub_fine; [| |exact H0]; auto using nr_empty|]. eapply IH; [| | |exact H1]; auto using nrs_nil.
    + apply nrs_cons in Hx. destruct Hx as [Hb Hx]. split; [eapply notSub_fine; [| |exact H0]; auto|]. eapply IH; [| | |exact H1]; auto.
Qed.
Lemma notPrefix_fine : forall n x it s r s', nrs (olist n) -> nrs (olist x) -> nrs (itemss it) -> notPrefix rec n x it s = Ok (r, s') -> nrs (olist r).
Proof.
  intros n x it s r s' Hn Hx Hi H. unfold notPrefix in H.
  assert (D : nr (match it with Some it => get_or (itNode it) emptyNode | None => emptyNode end)) by (apply itemss_node; auto using nr_empty).
  assert (A : nrs (get_or n [])) by (destruct n; auto using nrs_nil). assert (B : nrs (get_or x [])) by (destruct x; auto using nrs_nil).
  set (d := match it with Some it => get_or (itNode it) emptyNode | None => emptyNode end) in *. clearbody d.
  destruct n, x; pinvs; try apply nrs_nil; cbn [olist]; (eapply notPrefixLoop_fine; [| | |exact H0]; auto).
Qed.
Lemma assoc_nr : forall k l n, nrs (map snd l) -> assoc k l = Some n -> nr n.
Proof.
  induction l as [|[k' v] l IH]; cbn [assoc map snd]; intros n H A; [discriminate|]. apply nrs_cons in H. destruct H as [Hv Hl].
  destruct (String.eqb k k'); [injection A as <-; auto|auto].
Qed.
Lemma notPropsLoop_fine : forall ks n x acc s r s', nrs (map snd n) -> nrs (map snd x) -> nrs (map snd acc) ->
  notPropsLoop rec ks n x acc s = Ok (r, s') -> nrs (map snd r).
Proof.
  induction ks as [|k ks IH]; intros n x acc s r s' Hn Hx Ha H; cbn [notPropsLoop] in H; [pinvs; auto|].
  destruct (assoc k x) as [q|] eqn:Q.
  - pinvs. eapply IH; [| | |exact H]; auto. apply assign_nrs; auto. eapply notSub_fine; [| |exact H0].
    + destruct (assoc k n) eqn:N; cbn [get_or]; [eapply assoc_nr; [|exact N]; auto|apply nr_empty].
    + eapply assoc_nr; [|exact Q]; auto.
  - eapply IH; [| | |exact H]; auto. destruct (assoc k n) eqn:N; auto. apply assign_nrs; auto. eapply assoc_nr; [|exact N]; auto.
Qed.
Lemma mdelete_nrs : forall k l, nrs (map snd l) -> nrs (map (@snd string schemaNode) (mdelete k l)).
Proof.
  induction l as [|[k' v] l IH]; cbn [mdelete map snd]; intros H; auto. apply nrs_cons in H. destruct H.
  destruct (String.eqb k k'); cbn [map snd]; auto. apply nrs_cons; auto.
Qed.

(* the part of a node that nr looks at *)
Definition sameSubs (m m' : schemaNode) : Prop := sRef m' = sRef m /\ (forall R, eachField R m' <-> eachField R m).
Lemma sameSubs_nr : forall m m', sameSubs m m' -> nr m -> nr m'.
Proof. intros m m' [A B] H. apply nr_fields in H. apply nr_fields. destruct H as [H1 H2]. split; [congruence|]. apply B. exact H2. Qed.
Lemma notString_fine : forall st n x s st' s', nr (fst st) -> notApplyString E st n x s = Ok (st', s') -> nr (fst st').
Proof.
  intros [m c] n x s st' s' Hm H. unfold notApplyString in H. apply pbind_ok in H. destruct H as (b & t1 & _ & H). cbv zeta in H.
  assert (G : nr (set_sMinLength (fst b) (set_sMaxLength (snd b) (set_sPattern (sPattern n) (set_sFormat (sFormat n) m))))).
  { cbn [fst] in Hm. apply nr_fields in Hm. apply nr_fields. exact Hm. }
  set (m' := set_sMinLength _ _) in *. clearbody m'.
  destruct (sPattern x) as [p|]; [|destruct (sFormat x) as [f|]];
  repeat match type of H with (if ?b then _ else _) _ = _ => destruct b end;
  repeat match type of H with pbind _ _ _ = _ => apply pbind_ok in H; destruct H as (u & t & _ & H) end;
  apply pret_ok in H; destruct H as [-> _]; exact G.
Qed.
Lemma if_ok : forall A (b : bool) (m k : P A) s r, (if b then m else k) s = r -> m s = r \/ k s = r.
Proof. intros A [|]; auto. Qed.
Lemma notNumber_fine : forall st n x s st' s', nr (fst st) -> notApplyNumber st n x s = Ok (st', s') -> nr (fst st').
Proof.
  intros [m c] n x s st' s' Hm H. unfold notApplyNumber in H. cbv zeta in H.
  destruct (boundsFloat _ _ _ _ _ _ _ _ _) as [[[[mn mx] amn] amx] w]. apply pbind_ok in H. destruct H as (b & t1 & _ & H).
  cbn [fst] in Hm. apply nr_fields in Hm.
  repeat match type of H with (if ?b then ?m else ?k) _ = _ => apply (if_ok _ b m k) in H; destruct H as [H|H] end;
  repeat match type of H with pbind _ _ _ = _ => apply pbind_ok in H; destruct H as (u & t & _ & H) end;
  apply pret_ok in H; destruct H as [-> _]; cbn [fst]; apply nr_fields; exact Hm.
Qed.
Lemma notEnum_fine : forall st n x s st' s', nr (fst st) -> notApplyEnum st n x s = Ok (st', s') -> nr (fst st').
Proof.
  intros [m c] n x s st' s' Hm H. cbn [fst] in Hm. apply nr_fields in Hm. 
  assert (G : forall l, nr (set_sEnum l m)) by (intros; apply nr_fields; exact Hm). apply nr_fields in Hm.
  unfold notApplyEnum in H. cbv zeta in H.
  repeat match type of H with
  | match ?b with _ => _ end _ = _ => destruct b
  | (if ?b then _ else _) _ = _ => destruct b
  end;
  repeat match type of H with pbind _ _ _ = _ => apply pbind_ok in H; destruct H as (u & t & _ & H) end;
  apply pret_ok in H; destruct H as [-> _]; cbn [fst]; auto.
Qed.
Lemma notConst_fine : forall st n x s st' s', nr (fst st) -> notApplyConst st n x s = Ok (st', s') -> nr (fst st').
Proof.
  intros [m c] n x s st' s' Hm H. cbn [fst] in Hm. apply nr_fields in Hm. 
  assert (G : forall l, nr (set_sConst l m)) by (intros; apply nr_fields; exact Hm). apply nr_fields in Hm.
  unfold notApplyConst in H. cbv zeta in H.
  destruct (sConst x); [match type of H with (if ?b then _ else _) _ = _ => destruct b end|];
  repeat match type of H with pbind _ _ _ = _ => apply pbind_ok in H; destruct H as (u & t & _ & H) end;
  apply pret_ok in H; destruct H as [-> _]; cbn [fst]; auto.
Qed.
Ltac step H a := apply pbind_ok in H; let t := fresh "t" in let K := fresh "K" in destruct H as (a & t & K & H).
Lemma notArray_fine : forall st n x s st' s', nr (fst st) -> nr n -> nr x -> notApplyArray rec st n x s = Ok (st', s') -> nr (fst st').
Proof.
  intros [m c] n x s st' s' Hm Hn Hx H. cbn [fst] in Hm. apply nr_fields in Hm, Hn, Hx. unfold eachField in *. destruct Hm as [Rm Hm].
  unfold notApplyArray in H. step H bi. step H bc. cbv zeta in H. step H u1. step H its. step H u2. step H un. step H pre. step H une. step H con.
  apply pret_ok in H. destruct H as [-> _]. cbn [fst].
  apply notItems_fine in K2; try tauto. apply notPrefix_fine in K5; try tauto. apply notNof_fine in K6; try tauto. apply notSubPtr_fine in K7; try tauto.
  clear Hn Hx. apply nr_fields. split; [exact Rm|]. unfold eachField. tauto.
Qed.
Lemma notObject_fine : forall st n x s st' s', nr (fst st) -> nr n -> nr x -> notApplyObject rec st n x s = Ok (st', s') -> nr (fst st').
Proof.
  intros [m c] n x s st' s' Hm Hn Hx H. cbn [fst] in Hm. apply nr_fields in Hm, Hn, Hx. unfold eachField in *. destruct Hm as [Rm Hm].
  unfold notApplyObject in H. step H b. cbv zeta in H. step H props. step H u1. step H addp.
  assert (P : nrs (map snd props)).
  { eapply notPropsLoop_fine; [| | |exact K0]; [| |apply nrs_nil].
    - destruct (sProperties n); cbn [get_or]; [tauto|apply nrs_nil].
    - destruct (sProperties x); cbn [get_or]; [tauto|apply nrs_nil]. }
  apply notNof_fine in K2; try tauto. assert (PP : nrs (omaps (sPatternProperties n))) by tauto. clear Hn Hx.
  set (gone := filter _ _) in H.
  assert (P' : nrs (map snd (fold_left (fun acc p => mdelete p acc) gone props))).
  { clear H. revert props K0 P. generalize gone. induction gone0 as [|k l IH]; intros props K0 P; cbn [fold_left]; auto.
    clear K0. revert P. assert (forall l props, nrs (map snd props) -> nrs (map snd (fold_left (fun acc p => mdelete p acc) l props))) as X.
    { induction l0 as [|k' l' IH']; intros p Hp; cbn [fold_left]; auto. apply IH'. apply mdelete_nrs; auto. }
    intros P. apply X. apply mdelete_nrs; auto. }
  set (ps := fold_left _ gone props) in *. clearbody ps. apply pret_ok in H. destruct H as [-> _]. cbn [fst].
  destruct ps; apply nr_fields; (split; [exact Rm|]); unfold eachField; tauto.
Qed.
Lemma notStep_fine : forall n x s st s', nr n -> nr x -> notStep E rec n x s = Ok (st, s') -> nr (fst st).
Proof.
  intros n x s st s' Hn Hx H. unfold notStep in H. step H t0. destruct t0 as [m|]; [|apply pret_ok in H; destruct H as [-> _]; apply nr_empty].
  assert (Hm : nr m).
  { clear H. unfold notApplyType in K. destruct (resolveType n x) as [ty|].
    - apply pret_ok in K. destruct K as [K _]. injection K as ->. apply nr_intro; [reflexivity|]. intros c [].
    - step K u. apply pret_ok in K. destruct K as [K _]. discriminate K. }
  step H s1. apply notString_fine in K0; auto. step H s2. apply notNumber_fine in K1; auto. step H s3. apply notEnum_fine in K2; auto.
  step H s4. apply notConst_fine in K3; auto. step H s5. apply notArray_fine in K4; auto. step H s6. apply notObject_fine in K5; auto.
  step H s7. apply pret_ok in H. destruct H as [-> _]. cbn [fst]. clear K K0 K1 K2 K3 K4 K6 Hm Hx.
  apply nr_fields in K5, Hn. destruct Hn as [Rn Hn], K5 as [_ K]. apply nr_fields. split; [exact Rn|]. unfold eachField in *. unfold keepFields.
  assert (X : nrs (sMergedNot n ++ match sNot n with Some y => [y] | None => [] end)%list) by (apply nrs_app; split; [tauto|destruct (sNot n); tauto]).
  assert (Y : nrs (onode (@None schemaNode))) by (apply nrs_nil). cbn beta zeta. tauto.
Qed.
End NotFine.
Theorem notMerge_fine : forall E f n x s st s', nr n -> nr x -> notMerge E f n x s = Ok (st, s') -> nr (fst st).
Proof.
  induction f as [|f IH]; intros n x s st s' Hn Hx H; [discriminate|]. eapply (notStep_fine E (notMerge E f)); [exact IH| | |exact H]; auto.
Qed.
Lemma applyNots_fine : forall E f xs n c s st s', nr n -> nrs xs -> applyNots E f n c xs s = Ok (st, s') -> nr (fst st).
Proof.
  induction xs as [|x xs IH]; intros n c s st s' Hn Hx H; cbn [applyNots] in H; [apply pret_ok in H; destruct H as [-> _]; auto|].
  apply nrs_cons in Hx. destruct Hx as [Hx Hxs]. apply pbind_ok in H. destruct H as (a & t & K & H). eapply IH; [| |exact H]; auto.
  eapply notMerge_fine; [| |exact K]; auto.
Qed.

(* ------------------------------------------------------------------ negations end *)
#[export] Hint Resolve bl_notMerge bl_notSub bl_notSubPtr bl_notItems bl_notNof bl_notPrefixLoop bl_notPrefix bl_notApplyArray bl_notPropsLoop bl_notApplyObject : mono.
Lemma empty_not : forall E s, notMerge E 1 emptyNode emptyNode s <> Timeout.
Proof. intros E s. vm_compute. discriminate. Qed.

Section NotEnds.
Variable E : penv.
Variables n0 x0 : schemaNode.
(* the calls the recursion may make *)
Definition lower (n x : schemaNode) : Prop :=
  (wt x < wt x0)%nat \/ (x = emptyNode /\ n = emptyNode) \/ (x = emptyNode /\ (wt n < wt n0)%nat).
Hypothesis recT : forall n x s, lower n x -> tot (fun f => notMerge E f n x) s.

Lemma notSub_tot : forall sc n x s, lower n x -> tot (fun f => notSub (notMerge E f) sc n x) s.
Proof.
  intros sc n x s H. unfold notSub. apply tot_bind; [intros f f' Hf; mono|intros a f f' Hf; mono|apply tot_nto; auto with nto|intros _ _ s1 _].
  apply tot_bind; [intros f f' Hf; mono|intros a f f' Hf; mono|apply recT; auto|intros _ [m c] s2 _].
  apply tot_nto. notime.
Qed.
Lemma sub_lt : forall n c, In c (subnodes n) -> (wt c < wt n)%nat.
Proof. intros n c H. apply lsum_In in H. rewrite size_wt in H. unfold wt at 2. lia. Qed.
(* a field of the two nodes *)
Lemma lower_node : forall a b, (forall c, In c (onode a) -> In c (subnodes n0)) -> (forall c, In c (onode b) -> In c (subnodes x0)) ->
  lower (get_or a emptyNode) (get_or b emptyNode).
Proof.
  intros a b Ha Hb. unfold lower. destruct b as [b|]; cbn [get_or].
  - left. apply sub_lt. apply Hb. left. auto.
  - right. destruct a as [a|]; cbn [get_or]; [right|left]; auto. split; auto. apply sub_lt. apply Ha. left. auto.
Qed.
Lemma notSubPtr_tot : forall sc a b s, (forall c, In c (onode a) -> In c (subnodes n0)) -> (forall c, In c (onode b) -> In c (subnodes x0)) ->
  tot (fun f => notSubPtr (notMerge E f) sc a b) s.
Proof.
  intros sc a b s Ha Hb. pose proof (lower_node a b Ha Hb) as L. unfold notSubPtr.
  destruct a, b; try (apply tot_nto; notime; fail); (apply tot_bind; [intros f f' Hf; mono|intros c f f' Hf; mono|apply notSub_tot; auto|intros; apply tot_nto; notime]).
Qed.
Lemma notNof_tot : forall sc a b s, (forall c, In c (nofs a) -> In c (subnodes n0)) -> (forall c, In c (nofs b) -> In c (subnodes x0)) ->
  tot (fun f => notNof (notMerge E f) sc a b) s.
Proof.
  intros sc a b s Ha Hb. unfold notNof.
  assert (L : lower (get_or (nofSchema (get_or a (mkNOF None false))) emptyNode) (get_or (nofSchema (get_or b (mkNOF None false))) emptyNode)).
  { apply lower_node; [destruct a as [[[]]|]; auto; intros c []|destruct b as [[[]]|]; auto; intros c []]. }
  destruct a as [[a1 a2]|], b as [[b1 b2]|]; cbn [get_or nofSchema nofFalse] in *; try destruct a2; try (apply tot_nto; notime; fail);
   (apply tot_bind; [intros f f' Hf; mono|intros c f f' Hf; mono|apply notSub_tot; auto|intros; apply tot_nto; notime]).
Qed.
Lemma itemss_in : forall (o : option (itemsData schemaNode)) n, (forall c, In c (itemss o) -> In c (subnodes n)) ->
  forall c, In c (match o with Some d => onode (itNode d) | None => [] end) -> In c (subnodes n).
Proof. intros [[a l d]|] n H c Hc; [|destruct Hc]. apply H. cbn [itemss itNode] in *. apply in_or_app. auto. Qed.
Lemma notItems_tot : forall a b s, (forall c, In c (itemss a) -> In c (subnodes n0)) -> (forall c, In c (itemss b) -> In c (subnodes x0)) ->
  tot (fun f => notItems (notMerge E f) a b) s.
Proof.
  intros a b s Ha Hb. unfold notItems. destruct b as [b|]; [|apply tot_nto; notime].
  assert (L : lower (get_or (itNode (get_or a (mkItems None None false))) emptyNode) (get_or (itNode b) emptyNode)).
  { apply lower_node; [|exact (itemss_in (Some b) x0 Hb)]. destruct a as [a|]; [exact (itemss_in (Some a) n0 Ha)|intros c []]. }
  set (a' := get_or a _) in *. clearbody a'. destruct (itDisallow a' && itDisallow b); [apply tot_nto; notime|].
  destruct (itDisallow a'); [apply tot_nto; notime|].
  apply tot_bind; [intros f f' Hf; mono|intros c f f' Hf; mono|apply tot_nto; notime|intros _ _ s1 _].
  destruct (itNode a'), (itNode b); try (apply tot_nto; notime; fail);
   (apply tot_bind; [intros f f' Hf; mono|intros d f f' Hf; mono|apply notSub_tot; auto|intros; apply tot_nto; notime]).
Qed.
Lemma notPrefixLoop_tot : forall a i d b s, (forall c, In c a -> In c (subnodes n0)) -> (forall c, In c b -> In c (subnodes x0)) ->
  tot (fun f => notPrefixLoop (notMerge E f) i d a b) s.
Proof.
  induction a as [|c a IH]; intros i d b s Ha Hb.
  - revert i s. induction b as [|e b IHb]; intros i s; [apply tot_nto; apply nto_pret|].
    assert (K : forall i s, tot (fun f => notPrefixLoop (notMerge E f) i d [] b) s) by (apply IHb; intros c Hc; apply Hb; right; auto).
    enough (Y : tot (fun f => let* m := notSub (notMerge E f) ("/not/prefixItems/" ++ itoa i) d e in
       let* r := notPrefixLoop (notMerge E f) (i + 1) d [] b in pret (m :: r)) s) by (destruct b; exact Y).
    apply (tot_bind _ _ (fun f => notSub (notMerge E f) ("/not/prefixItems/" ++ itoa i) d e)
       (fun f m => let* r := notPrefixLoop (notMerge E f) (i + 1) d [] b in pret (m :: r))).
    + intros f f' Hf. mono.
    + intros m f f' Hf. mono.
    + apply notSub_tot. left. apply sub_lt. apply Hb. left. auto.
    + intros f m s1 _. apply tot_bind; [intros g g' Hf; mono|intros r g g' Hf; mono|apply K|intros; apply tot_nto; notime].
  - destruct b as [|e b]; cbn [notPrefixLoop].
    + apply tot_bind; [intros f f' Hf; mono|intros r f f' Hf; mono| |intros _ m s1 _].
      * apply notSub_tot. right. right. split; auto. apply sub_lt. apply Ha. left. auto.
      * apply tot_bind; [intros f f' Hf; mono|intros r f f' Hf; mono|apply IH; auto|intros; apply tot_nto; notime].
        intros x Hx. apply Ha. right. auto.
    + apply tot_bind; [intros f f' Hf; mono|intros r f f' Hf; mono| |intros _ m s1 _].
      * apply notSub_tot. left. apply sub_lt. apply Hb. left. auto.
      * apply tot_bind; [intros f f' Hf; mono|intros r f f' Hf; mono|apply IH|intros; apply tot_nto; notime]; intros x Hx; [apply Ha|apply Hb]; right; auto.
Qed.
Lemma notPrefix_tot : forall a b it s, (forall c, In c (olist a) -> In c (subnodes n0)) -> (forall c, In c (olist b) -> In c (subnodes x0)) ->
  tot (fun f => notPrefix (notMerge E f) a b it) s.
Proof.
  intros a b it s Ha Hb. unfold notPrefix. set (d := match it with Some _ => _ | None => _ end). clearbody d.
  assert (Ha' : forall c, In c (get_or a []) -> In c (subnodes n0)) by (destruct a; auto).
  assert (Hb' : forall c, In c (get_or b []) -> In c (subnodes x0)) by (destruct b; auto).
  destruct a, b; try (apply tot_nto; notime; fail);
   (apply tot_bind; [intros f f' Hf; mono|intros z f f' Hf; mono|apply notPrefixLoop_tot; auto|intros; apply tot_nto; notime]).
Qed.
Lemma notArray_tot : forall st s, tot (fun f => notApplyArray (notMerge E f) st n0 x0) s.
Proof.
  intros [m c] s. unfold notApplyArray.
  apply tot_bind; [intros f f' Hf; mono|intros z f f' Hf; mono|apply tot_nto; auto with nto|intros _ bi s1 _].
  apply tot_bind; [intros f f' Hf; mono|intros z f f' Hf; mono|apply tot_nto; auto with nto|intros _ bc s2 _]. cbv zeta.
  apply tot_bind; [intros f f' Hf; mono|intros z f f' Hf; mono|apply tot_nto; auto with nto|intros _ u1 s3 _].
  apply tot_bind; [intros f f' Hf; mono|intros z f f' Hf; mono|apply notItems_tot; apply sub_sItems|intros _ its s4 _].
  apply tot_bind; [intros f f' Hf; mono|intros z f f' Hf; mono|apply tot_nto; auto with nto|intros _ u2 s5 _].
  apply tot_bind; [intros f f' Hf; mono|intros z f f' Hf; mono|apply tot_nto; auto with nto|intros _ u3 s6 _].
  apply tot_bind; [intros f f' Hf; mono|intros z f f' Hf; mono|apply notPrefix_tot; apply sub_sPrefixItems|intros _ pre s7 _].
  apply tot_bind; [intros f f' Hf; mono|intros z f f' Hf; mono|apply notNof_tot; apply sub_sUnevaluatedItems|intros _ une s8 _].
  apply tot_bind; [intros f f' Hf; mono|intros z f f' Hf; mono|apply notSubPtr_tot; apply sub_sContains|intros _ con s9 _].
  apply tot_nto. notime.
Qed.
Lemma assoc_in : forall k (l : list (string * schemaNode)) n, assoc k l = Some n -> In n (map snd l).
Proof.
  induction l as [|[k' v] l IH]; cbn [assoc map snd]; intros n H; [discriminate|].
  destruct (String.eqb k k'); [injection H as <-; left; auto|right; auto].
Qed.
Lemma notProps_tot : forall ks a b acc s, (forall c, In c (map snd b) -> In c (subnodes x0)) ->
  tot (fun f => notPropsLoop (notMerge E f) ks a b acc) s.
Proof.
  induction ks as [|k ks IH]; intros a b acc s Hb; cbn [notPropsLoop]; [apply tot_nto; notime|].
  destruct (assoc k b) as [q|] eqn:Q; [|apply IH; auto].
  apply tot_bind; [intros f f' Hf; mono|intros z f f' Hf; mono| |intros; apply IH; auto].
  apply notSub_tot. left. apply sub_lt. apply Hb. eapply assoc_in. exact Q.
Qed.
Lemma notObject_tot : forall st s, tot (fun f => notApplyObject (notMerge E f) st n0 x0) s.
Proof.
  intros [m c] s. unfold notApplyObject.
  apply tot_bind; [intros f f' Hf; mono|intros z f f' Hf; mono|apply tot_nto; auto with nto|intros _ b s1 _]. cbv zeta.
  apply tot_bind; [intros f f' Hf; mono|intros z f f' Hf; mono| |intros _ props s2 _].
  { apply notProps_tot. intros c0 Hc. apply sub_sProperties. destruct (sProperties x0); auto. }
  apply tot_bind; [intros f f' Hf; mono|intros z f f' Hf; mono|apply tot_nto; auto with nto|intros _ u1 s3 _].
  apply tot_bind; [intros f f' Hf; mono|intros z f f' Hf; mono|apply notNof_tot; apply sub_sAdditionalProperties|intros; apply tot_nto; notime].
Qed.
Lemma notStep_tot : forall s, tot (fun f => notStep E (notMerge E f) n0 x0) s.
Proof.
  intros s. unfold notStep.
  apply tot_bind; [intros f f' Hf; mono|intros z f f' Hf; destruct z; mono|apply tot_nto; auto with nto|intros _ t s1 _].
  destruct t as [m|]; [|apply tot_nto; notime].
  apply tot_bind; [intros f f' Hf; mono|intros z f f' Hf; mono|apply tot_nto; auto with nto|intros _ t1 s2 _].
  apply tot_bind; [intros f f' Hf; mono|intros z f f' Hf; mono|apply tot_nto; auto with nto|intros _ t2 s3 _].
  apply tot_bind; [intros f f' Hf; mono|intros z f f' Hf; mono|apply tot_nto; auto with nto|intros _ t3 s4 _].
  apply tot_bind; [intros f f' Hf; mono|intros z f f' Hf; mono|apply tot_nto; auto with nto|intros _ t4 s5 _].
  apply tot_bind; [intros f f' Hf; mono|intros z f f' Hf; mono|apply notArray_tot|intros _ t5 s6 _].
  apply tot_bind; [intros f f' Hf; mono|intros z f f' Hf; mono|apply notObject_tot|intros _ t6 s7 _].
  apply tot_nto. notime.
Qed.
End NotEnds.
Theorem notMerge_tot : forall E n x s, tot (fun f => notMerge E f n x) s.
Proof.
  intros E n x. remember (wt x) as X eqn:EX. revert n x EX. induction X as [X IHX] using lt_wf_ind. intros n x EX.
  remember (wt n) as N eqn:EN. revert n x EX EN. induction N as [N IHN] using lt_wf_ind. intros n x EX EN s.
  apply (tot_le _ (fun f => notMerge E (S f) n x)); [intros f; exists (S f); apply bl_refl|].
  apply (notStep_tot E n x). intros n' x' s' [H|[[-> ->]|[-> H]]].
  - eapply IHX; [|reflexivity]. lia.
  - exists 1%nat. apply empty_not.
  - destruct (Nat.eq_dec X 0) as [->|Hx].
    + eapply (IHN (wt n')); auto. lia.
    + eapply (IHX O); auto. lia.
Qed.
Lemma applyNots_tot : forall E xs n c s, tot (fun f => applyNots E f n c xs) s.
Proof.
  induction xs as [|x xs IH]; intros n c s; cbn [applyNots]; [apply tot_nto; notime|].
  apply tot_bind; [intros f f' Hf; apply bl_notMerge; auto|intros z f f' Hf; apply bl_applyNots; auto|apply notMerge_tot|intros; apply IH].
Qed.
