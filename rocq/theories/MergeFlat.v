(* Merging nodes without references or allOf is a sequence of mergeInto steps from the empty node. *)
From Coq Require Import ZArith List String Bool Lia.
From Verif Require Import Base Float64 Json Schema Util PState RefPath Merge NotMerge Parse PFacts ParseKeep MergeFacts MergeProps.
Import ListNotations.
Open Scope string_scope.
Open Scope Z_scope.

Fixpoint intoAll (rec : list schemaNode -> P schemaNode) (m : schemaNode) (nodes : list schemaNode) : P schemaNode :=
  match nodes with
  | [] => pret m
  | n :: r => let* m' := mergeInto rec m n in intoAll rec m' r
  end.

Lemma mergeOne_flat : forall E rec fuel m n, sRef n = None -> sAllOf n = None ->
  forall s m' s', mergeOne E rec fuel m n s = Ok (m', s') -> mergeInto rec m n s = Ok (m', s').
Proof.
  intros E rec fuel m n R A s m' s' H1. unfold mergeOne, resolveNodeRef in H1. rewrite R in H1.
  apply pbind_ok in H1. destruct H1 as ([n1 res] & s2 & H2 & H1). apply pret_ok in H2. destruct H2 as [H2 ->]. inversion H2; subst n1 res.
  rewrite A in H1.
  apply pbind_ok in H1. destruct H1 as (n2 & s3 & H3 & H1). apply pret_ok in H3. destruct H3; subst n2 s3.
  apply pbind_ok in H1. destruct H1 as (m2 & s4 & H4 & H1). apply pret_ok in H1. destruct H1; subst m2 s4. exact H4.
Qed.
Lemma mergeLoop_flat : forall E rec fuel nodes m s m' s', (forall n, In n nodes -> sRef n = None /\ sAllOf n = None) ->
  mergeLoop E rec fuel m nodes s = Ok (m', s') -> intoAll rec m nodes s = Ok (m', s').
Proof.
  induction nodes as [|n r IH]; cbn [mergeLoop intoAll]; intros m s m' s' Hn H; auto.
  apply pbind_ok in H. destruct H as (m1 & s1 & H1 & H).
  destruct (Hn n (or_introl eq_refl)) as [R A]. apply mergeOne_flat in H1; auto.
  unfold pbind. rewrite H1. apply IH; auto. intros; apply Hn; right; auto.
Qed.
Lemma merge_flat : forall E fuel nodes s m s', (forall n, In n nodes -> sRef n = None /\ sAllOf n = None) ->
  merge E fuel nodes s = Ok (m, s') -> exists f, fuel = S (S f) /\ intoAll (merge E (S f)) emptyNode nodes s = Ok (m, s').
Proof.
  intros E [|f] nodes s m s' Hn H; [discriminate|]. cbn [merge] in H.
  apply pbind_ok in H. destruct H as (m1 & s1 & H1 & H).
  pose proof (loop_noAllOf _ _ _ _ _ _ _ _ H1 eq_refl Hn) as A. apply mergeLoop_flat in H1; auto.
  destruct f as [|f]; [discriminate|]. cbn [flatten] in H. rewrite A in H. apply pret_ok in H. destruct H; subst. eauto.
Qed.

(* the keywords that are copied when nodes that set them once are merged *)
Record sameKeys (m n : schemaNode) : Prop := mkSame {
  skPattern : sPattern m = sPattern n;
  skFormat : sFormat m = sFormat n;
  skRequired : get_or (sRequired m) [] = get_or (sRequired n) [];
  skValues : collectEnum m = collectEnum n;
  skNots : collectNots m = collectNots n;
  skConstraints : sConstraints m = sConstraints n }.
Lemma sameKeys_refl : forall n, sameKeys n n.
Proof. intros. constructor; reflexivity. Qed.

Lemma into_empty : forall rec m n s m' s', sameKeys m emptyNode -> mergeInto rec m n s = Ok (m', s') -> sameKeys m' n.
Proof.
  intros rec m n s m' s' [K1 K2 K3 K4 K5 K7] H. cbn in K1, K2, K3, K4, K5, K7.
  unfold collectNots in K5. cbn in K5. apply app_eq_nil in K5. destruct K5 as [K5 K6].
  assert (K5' : sNot m = None) by (destruct (sNot m); [discriminate|reflexivity]). clear K5.
  fields H. subst m'. constructor.
  - cbn [sPattern]. rewrite K1. destruct (sPattern n); reflexivity.
  - cbn [sFormat]. rewrite K2. destruct (sFormat n); reflexivity.
  - cbn [sRequired]. unfold mergeSlicePtrs. rewrite K3. cbn [app]. destruct (get_or (sRequired n) []); reflexivity.
  - unfold mergeEnum, collectEnum at 1. cbn [sEnum sConst]. rewrite K4. destruct (collectEnum n) as [l|] eqn:C; cbn [fst].
    + destruct (collect_put l m) as [P _]. exact P.
    + exact K4.
  - unfold collectNots. cbn [sNot sMergedNot]. subst nt mn. unfold mergeNot. rewrite K5', K6.
    destruct (sNot n), (sMergedNot n); cbn [set_sMergedNot set_sNot sNot sMergedNot]; rewrite ?K5', ?K6; cbn [set_sMergedNot set_sNot sNot sMergedNot app]; rewrite ?K5', ?K6; reflexivity.
  - cbn [sConstraints]. rewrite K7. destruct (sConstraints n); reflexivity.
Qed.
Lemma into_alone : forall rec n s m s', intoAll rec emptyNode [n] s = Ok (m, s') -> sameKeys m n.
Proof.
  intros rec n s m s' H. cbn [intoAll] in H. apply pbind_ok in H. destruct H as (m1 & s1 & H & H1). apply pret_ok in H1. destruct H1; subst.
  eapply into_empty; eauto. apply sameKeys_refl.
Qed.
Lemma into_two : forall rec m a b s m' s', intoAll rec m [a; b] s = Ok (m', s') ->
  exists m1 s1, mergeInto rec m a s = Ok (m1, s1) /\ mergeInto rec m1 b s1 = Ok (m', s').
Proof.
  intros rec m a b s m' s' H. cbn [intoAll] in H. apply pbind_ok in H. destruct H as (m1 & s1 & H & H1).
  apply pbind_ok in H1. destruct H1 as (m2 & s2 & H1 & H2). apply pret_ok in H2. destruct H2; subst. eauto.
Qed.
Lemma into_both : forall rec m a n s m' s', sameKeys m emptyNode -> (forall x, sameKeys x a -> sameKeys x emptyNode) ->
  intoAll rec m [a; n] s = Ok (m', s') -> sameKeys m' n.
Proof.
  intros rec m a n s m' s' K KA H. apply into_two in H. destruct H as (m1 & s1 & H & H1).
  eapply into_empty; [|exact H1]. apply KA. eapply into_empty; [|exact H]. exact K.
Qed.
Lemma merge_alone : forall E fuel n s m s', sRef n = None -> sAllOf n = None -> merge E fuel [n] s = Ok (m, s') -> sameKeys m n.
Proof.
  intros E fuel n s m s' R A H. apply merge_flat in H; [|intros x [<-|[]]; auto]. destruct H as (f & _ & H). eapply into_alone; eauto.
Qed.
Lemma merge_after_empty : forall E fuel n s m s', sRef n = None -> sAllOf n = None -> merge E fuel [emptyNode; n] s = Ok (m, s') -> sameKeys m n.
Proof.
  intros E fuel n s m s' R A H. apply merge_flat in H; [|intros x [<-|[<-|[]]]; auto]. destruct H as (f & _ & H). refine (into_both _ _ _ _ _ _ _ (sameKeys_refl _) _ H). auto.
Qed.
(* at most one of enum and const is left, and an enum of one value becomes a const *)
Definition normal (m : schemaNode) : Prop :=
  match sEnum m with None => True | Some [_] => False | Some _ => sConst m = None end.
Lemma normal_put : forall l m, normal (putEnum l m).
Proof. intros [|a [|b l]] m; unfold putEnum, normal; cbn; auto. Qed.
Lemma into_normal : forall rec m n s m' s', normal m -> mergeInto rec m n s = Ok (m', s') -> normal m'.
Proof.
  intros rec m n s m' s' O H. fields H. subst m'. unfold normal. cbn [sEnum sConst]. unfold mergeEnum.
  destruct (collectEnum m) as [a|], (collectEnum n) as [b|]; cbn [fst].
  - destruct (intersectEnum a b) as [|j l]; cbn [fst]; [exact I|apply normal_put].
  - apply normal_put.
  - apply normal_put.
  - exact O.
Qed.
Lemma intoAll_normal : forall rec nodes m s m' s', normal m -> intoAll rec m nodes s = Ok (m', s') -> normal m'.
Proof.
  induction nodes as [|n r IH]; cbn [intoAll]; intros m s m' s' O H.
  - apply pret_ok in H. destruct H; subst; auto.
  - apply pbind_ok in H. destruct H as (m1 & s1 & H1 & H). eapply IH; [|exact H]. eapply into_normal; eauto.
Qed.
Lemma merge_normal : forall E fuel nodes s m s', (forall n, In n nodes -> sRef n = None /\ sAllOf n = None) ->
  merge E fuel nodes s = Ok (m, s') -> normal m.
Proof.
  intros E fuel nodes s m s' Hn H. apply merge_flat in H; auto. destruct H as (f & _ & H). eapply intoAll_normal; [|exact H].
  exact I.
Qed.
Lemma normal_const : forall m v, normal m -> collectEnum m = Some [v] -> sConst m = Some v.
Proof.
  unfold normal, collectEnum. intros m v N H. destruct (sEnum m) as [l|].
  - injection H as ->. destruct N.
  - destruct (sConst m); [injection H as ->; auto|discriminate].
Qed.
