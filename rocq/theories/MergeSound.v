(* The whole merge: a value valid against the merged schema is valid against every schema merged. *)
From Coq Require Import ZArith Reals List String Bool Lia Lra Permutation.
From Flocq Require Import Core BinarySingleNaN.
From Verif Require Import Base Float64 Json Schema Util Number Gen Codec PState PFacts RefPath Merge NotMerge Parse ParseKeep FloatFacts SpecNumber SpecSchema MergeFacts MergeProps JEq SpecMerge MergeValid MergeStep.
Import ListNotations.
Open Scope string_scope.
Open Scope Z_scope.

Section Sound.
Variable E : penv.
Variable matches : string -> string -> Prop.
Variable formatted : string -> string -> Prop.
Variable refers : string -> json -> Prop.
Notation valid := (valid matches formatted refers).
Notation recOk := (recOk matches formatted refers).

Lemma slice_app : forall A (a b : option (list A)), get_or (mergeSlicePtrs a b) [] = (get_or a [] ++ get_or b [])%list.
Proof. intros. unfold mergeSlicePtrs. destruct (get_or a [] ++ get_or b [])%list; reflexivity. Qed.
Lemma into_branches : forall rec m n s m' s', mergeInto rec m n s = Ok (m', s') -> branches m' = (branches m ++ branches n)%list.
Proof. intros rec m n s m' s' H. fields H. rewrite Em. unfold branches. cbn [sAllOf]. apply slice_app. Qed.

Lemma loop_valid : forall rec fuel d, (forall l, stable E (rec l)) -> recOk rec d -> forall nodes m X s m' s',
  fit (S d) (conjuncts m ++ concatMap conjuncts nodes ++ X)%list -> mergeLoop E rec fuel m nodes s = Ok (m', s') -> quiet s' ->
  fit (S d) (conjuncts m' ++ X)%list /\ forall v, valid m' v -> valid m v /\ forall n, In n nodes -> valid n v.
Proof.
  intros rec fuel d Hs R. induction nodes as [|n r IH]; intros m X s m' s' F H Q; cbn [mergeLoop] in H.
  - apply pret_ok in H. destruct H; subst. split; auto. intros v V. split; auto. intros n [].
  - apply pbind_ok in H. destruct H as (m1 & s1 & H1 & H).
    assert (Sn : single n).
    { apply (single_body None). apply fit_S in F. destruct F as [F _]. apply F. rewrite (conjuncts_eq m). cbn [concatMap]. rewrite (conjuncts_eq n).
      rewrite !in_app_iff. cbn [In]. auto. }
    unfold mergeOne, resolveNodeRef in H1. rewrite (siRef _ Sn) in H1.
    apply pbind_ok in H1. destruct H1 as ([n1 res] & s2 & H2 & H1). apply pret_ok in H2. destruct H2 as [H2 ->]. inversion H2; subst n1 res.
    apply pbind_ok in H1. destruct H1 as (n2 & s3 & H3 & H1).
    assert (n2 = n /\ s3 = s) as [-> ->] by (destruct (sAllOf n); apply pret_ok in H3; tauto).
    apply pbind_ok in H1. destruct H1 as (m2 & s4 & H4 & H1). apply pret_ok in H1. destruct H1; subst m2 s4.
    assert (Q1 : quiet s1) by (eapply (quiet_back E); [|exact Q]; eapply st_mergeLoop; eauto).
    set (Y := (concatMap conjuncts (branches m) ++ concatMap conjuncts (branches n) ++ concatMap conjuncts r ++ X)%list).
    assert (F1 : fit (S d) (set_sAllOf None m :: set_sAllOf None n :: Y)).
    { eapply fit_perm; [|exact F]. rewrite (conjuncts_eq m). cbn [concatMap]. rewrite (conjuncts_eq n). cbn [app]. apply perm_skip. subst Y.
      rewrite <- !app_assoc. cbn [app]. apply Permutation_sym, Permutation_cons_app. apply Permutation_refl. }
    destruct (valid_step E rec Hs matches formatted refers d m n Y s m1 s1 R H4 Q1 F1) as [F2 V2].
    destruct (IH m1 X s1 m' s') as [F3 V3]; auto.
    { rewrite (conjuncts_eq m1), (into_branches _ _ _ _ _ _ H4), concatMap_app. cbn [app]. subst Y. rewrite <- !app_assoc. exact F2. }
    split; auto. intros v V. destruct (V3 v V) as [V4 V5].
    rewrite valid_allOf in V4. destruct V4 as [V4 V6]. rewrite (into_branches _ _ _ _ _ _ H4) in V6. destruct (V2 v V4) as [V7 V8].
    split; [|intros c [<-|I]; auto]; apply valid_allOf; (split; [assumption|]); intros b Ib; apply V6, in_app_iff; auto.
Qed.

Lemma flatten_valid : forall rec d, (forall l, stable E (rec l)) -> recOk rec d -> forall f m X s m' s',
  fit d (conjuncts m ++ X)%list -> flatten E rec f m s = Ok (m', s') -> quiet s' ->
  fit d (conjuncts m' ++ X)%list /\ forall v, valid m' v -> valid m v.
Proof.
  intros rec d Hs R. induction f; intros m X s m' s' F H Q; cbn [flatten] in H; [discriminate|].
  destruct (sAllOf m) as [[|x l]|] eqn:Ea; try (apply pret_ok in H; destruct H; subst; split; auto; fail).
  apply pbind_ok in H. destruct H as (sg & sg' & Hg & H). apply pget_ok in Hg. destruct Hg; subst sg sg'.
  destruct (pxMaxDepth E <? pDepth s + 1). { apply pret_ok in H; destruct H; subst; split; auto. }
  apply pbind_ok in H. destruct H as (u & s1 & H1 & H). apply pmod_ok in H1.
  apply pbind_ok in H. destruct H as (m1 & s2 & H2 & H).
  apply pbind_ok in H. destruct H as (sg & sg' & Hg & H). apply pget_ok in Hg. destruct Hg; subst sg sg'.
  apply pbind_ok in H. destruct H as (u' & s3 & H3 & H). apply pmod_ok in H3.
  assert (Q3 : quiet s3) by (eapply (quiet_back E); [|exact Q]; eapply st_flatten; eauto).
  assert (Q2 : quiet s2) by (subst s3; exact Q3).
  destruct (R ((x :: l) ++ [set_sAllOf None m])%list X s1 m1 s2) as [F1 V1]; [|exact H2|exact Q2|].
  { eapply fit_perm; [|exact F]. apply Permutation_app_tail. rewrite (conjuncts_eq m), concatMap_app. unfold branches. rewrite Ea. cbn [get_or].
    eapply Permutation_trans; [apply Permutation_cons_append|]. apply Permutation_app_head. cbn. apply Permutation_refl. }
  destruct (IHf _ X _ _ _ F1 H Q) as [F2 V2]. split; auto.
  intros v V. apply V2 in V. apply valid_allOf. unfold branches. rewrite Ea. cbn [get_or].
  split; [apply (V1 v V); apply in_app_iff; simpl; auto|]. intros b I. apply (V1 v V). apply in_app_iff. auto.
Qed.

Lemma empty_fits : forall d l, fit (S d) l -> fit (S d) (emptyNode :: l).
Proof.
  intros d l F. apply fit_S in F. destruct F as (F1 & F2 & F3).
  assert (Se : single emptyNode).
  { constructor; cbn; auto; try discriminate; try (constructor; fail).
    unfold finiteBounds. cbn. auto. }
  apply fit_S. split; [|split].
  - intros n [<-|I]; auto.
  - constructor; auto. rewrite Forall_forall. intros x _.
    constructor; unfold sameIfBoth, notBoth; cbn; auto; try discriminate.
    + split; cbn; congruence.
    + split; cbn; [|intros; lia]. intros _. split; intros k [].
  - intros w. cbn [concatMap]. replace (subAt w emptyNode) with (@nil schemaNode) by (destruct w; try reflexivity; destruct i; reflexivity). apply F3.
Qed.

Theorem merge_valid : forall f d, recOk (merge E f) d.
Proof.
  induction f; intros d nodes X s m s' F H Q; cbn [merge] in H; [discriminate|].
  destruct d as [|d]; [destruct F|].
  apply pbind_ok in H. destruct H as (m1 & s1 & H1 & H).
  assert (Q1 : quiet s1) by (eapply (quiet_back E); [|exact Q]; eapply st_flatten; eauto using st_merge).
  destruct (loop_valid _ _ d (st_merge E f) (IHf d) nodes emptyNode X s m1 s1 (empty_fits _ _ F) H1 Q1) as [F1 V1].
  destruct (flatten_valid _ (S d) (st_merge E f) (IHf (S d)) _ _ X _ _ _ F1 H Q) as [F2 V2].
  split; auto. intros v V. apply V1, V2. exact V.
Qed.

Theorem merge_keeps : forall fuel nodes s m s' v, merge E fuel nodes s = Ok (m, s') -> canMerge nodes ->
  ~ reportedEnum (pErrs s') -> valid m v -> forall n, In n nodes -> valid n v.
Proof.
  intros fuel nodes s m s' v H (d & F) Q V. destruct (merge_valid fuel d nodes [] s m s') as [_ W]; auto. rewrite app_nil_r. exact F.
Qed.
End Sound.
