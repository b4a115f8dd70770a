(* anyOf next to oneOf *)
From Coq Require Import ZArith List String Bool Lia.
From Verif Require Import Base Float64 Json Schema Util Options Number Gen GenInv GenValues PState RefPath Merge NotMerge Parse.
From Verif Require Import SpecSchema SpecParse SpecRun PFacts MergeFacts MergeProps MergeFlat ValueProps ConstrProps.
Import ListNotations.
Open Scope string_scope.
Open Scope Z_scope.

(* the combination keywords of merged nodes *)
Lemma slices : forall A (a b : option (list A)), get_or (mergeSlicePtrs a b) [] = (get_or a [] ++ get_or b [])%list.
Proof. intros A a b. unfold mergeSlicePtrs. destruct (get_or a [] ++ get_or b [])%list; reflexivity. Qed.
Definition combosOf (m : schemaNode) (any one : list schemaNode) : Prop :=
  sRef m = None /\ sConstraints m = None /\ get_or (sAnyOf m) [] = any /\ get_or (sOneOf m) [] = one.
Lemma into_combos : forall rec m n s m' s' x y u w, mergeInto rec m n s = Ok (m', s') -> combosOf m x y -> combosOf n u w -> combosOf m' (x ++ u) (y ++ w).
Proof.
  intros rec m n s m' s' x y u w H (R1 & C1 & A1 & O1) (R2 & C2 & A2 & O2). fields H. subst m'. unfold combosOf.
  cbn [sRef sConstraints sAnyOf sOneOf]. rewrite R1, R2, C1, C2, !slices, A1, A2, O1, O2. repeat split.
Qed.
Lemma alone_combos : forall E fuel n s m s' x y, sAllOf n = None -> combosOf n x y -> merge E fuel [n] s = Ok (m, s') -> combosOf m x y /\ sAllOf m = None.
Proof.
  intros E fuel n s m s' x y A K H. pose proof (proj1 K) as R. split.
  - apply merge_flat in H; [|intros q [<-|[]]; auto]. destruct H as (f & _ & H). cbn [intoAll] in H.
    apply pbind_ok in H. destruct H as (m1 & s1 & H1 & H). apply pret_ok in H. destruct H; subst.
    refine (into_combos _ _ _ _ _ _ [] [] x y H1 _ K). repeat split.
  - refine (merge_noAllOf _ _ _ _ _ _ H _). intros q [<-|[]]; auto.
Qed.
Lemma both_combos : forall E fuel n b s m s' x y u w, sAllOf n = None -> sAllOf b = None -> combosOf n x y -> combosOf b u w ->
  merge E fuel [n; b] s = Ok (m, s') -> combosOf m (x ++ u) (y ++ w) /\ sAllOf m = None.
Proof.
  intros E fuel n b s m s' x y u w A B K L H. pose proof (proj1 K) as R. pose proof (proj1 L) as R'. split.
  - apply merge_flat in H; [|intros q [<-|[<-|[]]]; auto]. destruct H as (f & _ & H). cbn [intoAll] in H.
    apply pbind_ok in H. destruct H as (m1 & s1 & H1 & H). apply pbind_ok in H. destruct H as (m2 & s2 & H2 & H). apply pret_ok in H. destruct H; subst.
    refine (into_combos _ _ _ _ _ _ x y u w H2 _ L). refine (into_combos _ _ _ _ _ _ [] [] x y H1 _ K). repeat split.
  - refine (merge_noAllOf _ _ _ _ _ _ H _). intros q [<-|[<-|[]]]; auto.
Qed.
