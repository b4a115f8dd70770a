(* Merging keeps the conditions, the negations and the exclusions of every schema merged. *)
From Coq Require Import ZArith List String Bool Lia.
From Verif Require Import Base Float64 Json Schema Util PState PFacts ParseKeep Merge NotMerge Parse SpecSchema SpecParse MergeFacts MergeProps MergeFlat ConstrProps NotValues NotKeep.
Import ListNotations.
Open Scope string_scope.
Open Scope Z_scope.

(* a condition of n: one collected earlier, or its own if/then/else *)
Definition conditionOf (n : schemaNode) (i t e : option schemaNode) : Prop :=
  (exists st, In st (sMergedIf n) /\ ifIf st = i /\ ifThen st = t /\ ifElse st = e) \/
  (sIf n <> None /\ sIf n = i /\ sThen n = t /\ sElse n = e).
Record keptBy (n m : schemaNode) : Prop := mkKept {
  kbIfs : forall i t e, conditionOf n i t e -> exists st, In st (sMergedIf m) /\ ifIf st = i /\ ifThen st = t /\ ifElse st = e;
  kbNots : forall x, In x (collectNots n) -> In x (collectNots m);
  kbColl : forall c, sConstraints n = Some c -> exists c', sConstraints m = Some c' /\ within c c' }.

Lemma nots_in : forall n x, In x (collectNots n) <-> sNot n = Some x \/ In x (sMergedNot n).
Proof. intros n x. unfold collectNots. rewrite in_app_iff. destruct (sNot n) as [y|]; cbn; split; intros [A|A]; auto; try discriminate; try tauto; [destruct A as [->|[]]; auto|injection A as ->; auto]. Qed.

Lemma mergeNot_in : forall m n x, In x (collectNots (mergeNot m n)) <-> In x (collectNots m) \/ In x (collectNots n).
Proof.
  intros m n x. unfold mergeNot. rewrite !nots_in.
  destruct (sNot n) as [y|] eqn:EN, (sNot m) as [z|] eqn:EM, (sMergedNot m) as [|a l] eqn:EL, (sMergedNot n) as [|b r] eqn:EB;
    cbn [set_sNot set_sMergedNot sNot sMergedNot]; rewrite ?EM, ?EL, ?EB; cbn [set_sNot set_sMergedNot sNot sMergedNot]; rewrite ?EM, ?EL, ?EB; cbn [app In]; rewrite ?in_app_iff; cbn [In]; rewrite ?in_app_iff; cbn [In];
    split; intros HH; repeat match goal with H : _ \/ _ |- _ => destruct H | H : Some _ = Some _ |- _ => injection H as -> | H : None = Some _ |- _ => discriminate H | H : False |- _ => destruct H end; subst; auto 10.
Qed.

Lemma coll_left : forall a b c, a = Some c -> exists c', mergeConstraints a b = Some c' /\ within c c'.
Proof. intros a [y|] c ->; cbn [mergeConstraints]; eexists; split; try reflexivity; [apply within_left|apply within_refl]. Qed.
Lemma coll_right : forall a b c, b = Some c -> exists c', mergeConstraints a b = Some c' /\ within c c'.
Proof. intros [x|] b c ->; cbn [mergeConstraints]; eexists; split; try reflexivity; [apply within_merge|apply within_refl]. Qed.

Lemma into_keeps : forall rec m n s m' s', mergeInto rec m n s = Ok (m', s') -> sIf m = None ->
  sIf m' = None /\ keptBy m m' /\ keptBy n m'.
Proof.
  intros rec m n s m' s' H IM. fields H.
  assert (X : sIf m' = sIf m /\ sMergedIf m' = mi /\ collectNots m' = collectNots (mergeNot m n) /\ sConstraints m' = mergeConstraints (sConstraints m) (sConstraints n)).
  { subst m'. unfold collectNots. cbn [sIf sMergedIf sNot sMergedNot sConstraints]. subst nt mn. auto. }
  destruct X as (X1 & X2 & X3 & X4). clear Em. split; [congruence|].
  assert (L : forall st, In st (sMergedIf m) \/ In st (sMergedIf n) \/ (sIf n <> None /\ st = newIf n (pPath s9 ++ "/if")) -> In st (sMergedIf m')).
  { intros st D. rewrite X2, Emi. unfold mergeIf. cbn [set_sMergedIf sMergedIf]. destruct D as [D|[D|[D ->]]].
    - destruct (sIf n); rewrite ?in_app_iff; auto.
    - destruct (sIf n); rewrite ?in_app_iff; auto.
    - destruct (sIf n); [|congruence]. rewrite in_app_iff. right. left. reflexivity. }
  split; constructor.
  - intros i t e [(st & I & R)|(D & _)]; [|congruence]. exists st. split; [apply L; auto|exact R].
  - intros x I. rewrite X3. apply mergeNot_in. auto.
  - intros c C. rewrite X4. apply coll_left. exact C.
  - intros i t e [(st & I & R)|(D & R)].
    + exists st. split; [apply L; auto|exact R].
    + exists (newIf n (pPath s9 ++ "/if")). split; [apply L; auto|exact R].
  - intros x I. rewrite X3. apply mergeNot_in. auto.
  - intros c C. rewrite X4. apply coll_right. exact C.
Qed.

Lemma kept_trans : forall a b c, keptBy a b -> keptBy b c -> keptBy a c.
Proof.
  intros a b c [A1 A2 A3] [B1 B2 B3]. constructor; auto.
  - intros i t e C. apply A1 in C. apply B1. left. exact C.
  - intros k C. apply A3 in C. destruct C as (k' & C & (W1 & W2 & W3 & W4)). apply B3 in C. destruct C as (k2 & C & (V1 & V2 & V3 & V4)). exists k2. split; [exact C|].
    split; [auto|]. split; [auto|]. split; auto.
Qed.

Lemma intoAll_keeps : forall rec nodes m s m' s', intoAll rec m nodes s = Ok (m', s') -> sIf m = None ->
  sIf m' = None /\ (nodes <> [] -> keptBy m m') /\ forall n, In n nodes -> keptBy n m'.
Proof.
  intros rec. induction nodes as [|n r IH]; cbn [intoAll]; intros m s m' s' H IM.
  - apply pret_ok in H. destruct H; subst. split; [exact IM|]. split; [congruence|]. intros n [].
  - apply pbind_ok in H. destruct H as (m1 & s1 & H1 & H). destruct (into_keeps _ _ _ _ _ _ H1 IM) as (I1 & K1 & K2).
    destruct r as [|n2 r].
    + cbn [intoAll] in H. apply pret_ok in H. destruct H; subst. split; [exact I1|]. split; [intros _; exact K1|]. intros y [<-|[]]. exact K2.
    + destruct (IH _ _ _ _ H I1) as (I2 & K3 & K4). specialize (K3 ltac:(discriminate)). split; [exact I2|].
      split; [intros _; eapply kept_trans; eauto|]. intros y [<-|I]; [eapply kept_trans; eauto|apply K4; exact I].
Qed.

Lemma merge_keeps : forall E fuel nodes s m s', (forall n, In n nodes -> sRef n = None /\ sAllOf n = None) ->
  merge E fuel nodes s = Ok (m, s') -> forall n, In n nodes -> keptBy n m.
Proof.
  intros E fuel nodes s m s' HN H n I. apply merge_flat in H; auto. destruct H as (f & _ & H).
  destruct (intoAll_keeps _ _ _ _ _ _ H eq_refl) as (_ & _ & K). exact (K n I).
Qed.

(* ------------------------------------------------------------------ conflicting keywords are reported *)
Definition reported (k : string) (s : pst) : Prop := exists doc path, In ((doc, path ++ "/config_merge_error"), k) (pErrs s).
Lemma warnAll_reports : forall l s u s', warnAll l s = Ok (u, s') -> (forall k, In k l -> reported k s') /\ incl (pErrs s) (pErrs s').
Proof.
  induction l as [|f l IH]; cbn [warnAll]; intros s u s' H.
  - apply pret_ok in H. destruct H; subst. split; [intros k []|apply incl_refl].
  - apply pbind_ok in H. destruct H as (v & s1 & H1 & H). unfold warnMerge, addErrSub in H1. apply pmod_ok in H1. destruct (IH _ _ _ H) as [A B]. subst s1.
    cbn [pErrs withErrs] in B. split.
    + intros k [<-|I]; [|auto]. exists (pParsing s), (pPath s). apply B. left. reflexivity.
    + intros e I. apply B. right. exact I.
Qed.
Lemma warnings_same : forall x m n, sLength x = sLength m -> sPattern x = sPattern m -> sFormat x = sFormat m -> sUniqueItems x = sUniqueItems m -> simpleWarnings x n = simpleWarnings m n.
Proof. intros x m n A B C D. unfold simpleWarnings. rewrite A, B, C, D. reflexivity. Qed.
Lemma warnings_late : forall a b c d e f g h i j k en co ty nt mn mi m n,
  simpleWarnings (set_sMergedIf mi (set_sMergedNot mn (set_sNot nt (set_sOneOf i (set_sAnyOf j (set_sAllOf k
    (set_sProperties a (set_sAdditionalProperties b (set_sPatternProperties c (set_sPrefixItems d (set_sItems e (set_sAdditionalItems f (set_sUnevaluatedItems g (set_sContains h
    (set_sConst co (set_sEnum en (set_sType ty m))))))))))))))))) n = simpleWarnings m n.
Proof. intros. apply warnings_same; reflexivity. Qed.
Lemma into_warned : forall rec m n s m' s', mergeInto rec m n s = Ok (m', s') ->
  forall k, In k (simpleWarnings m n) -> reported k s'.
Proof.
  intros rec m n s m' s' H k I. unfold mergeInto in H. destruct (mergeEnum _ n) as [m1 e] eqn:EM.
  pose proof (mergeEnum_shape (set_sType (mergeTypes (sType m) (sType n)) m) n) as (en & co & Hsh). rewrite EM in Hsh. cbn [fst] in Hsh. clear EM.
  apply pbind_ok in H. destruct H as (u & s1 & _ & H).
  apply pbind_ok in H. destruct H as (props & s2 & _ & H).
  apply pbind_ok in H. destruct H as (addp & s3 & _ & H).
  apply pbind_ok in H. destruct H as (patp & s4 & _ & H).
  apply pbind_ok in H. destruct H as (pre & s5 & _ & H).
  apply pbind_ok in H. destruct H as (its & s6 & _ & H).
  apply pbind_ok in H. destruct H as (addi & s7 & _ & H).
  apply pbind_ok in H. destruct H as (unev & s8 & _ & H).
  apply pbind_ok in H. destruct H as (cont & s9 & _ & H).
  match type of H with context [mergeNot ?M n] => set (M1 := M) in *; destruct (mergeNot_shape M1 n) as (nt & mn & Hnt) end.
  rewrite Hnt in H.
  apply pbind_ok in H. destruct H as (sg & sg' & Hg & H).
  apply pbind_ok in H. destruct H as (u' & s10 & Hwarn & H). apply pret_ok in H. destruct H as [_ H]. subst s10.
  destruct (warnAll_reports _ _ _ _ Hwarn) as [A _]. apply A. unfold mergeIf. subst M1 m1. rewrite warnings_late. exact I.
Qed.
Lemma into_keys : forall rec m n s m' s', mergeInto rec m n s = Ok (m', s') ->
  sLength m' = getPtr (sLength n) (sLength m) /\ sPattern m' = getPtr (sPattern n) (sPattern m) /\
   sFormat m' = getPtr (sFormat n) (sFormat m) /\ sUniqueItems m' = getPtr (sUniqueItems n) (sUniqueItems m).
Proof. intros rec m n s m' s' H. fields H. subst m'. exact (conj eq_refl (conj eq_refl (conj eq_refl eq_refl))). Qed.
Lemma keeps_reported : forall E k s s', keeps E s s' -> reported k s -> reported k s'.
Proof. intros E k s s' K (d & p & I). destruct (kErrs _ _ _ K) as [l Hl]. exists d, p. rewrite Hl. apply in_or_app. auto. Qed.

Section Conflict.
Variables (T : Type) (eqb : T -> T -> bool) (key : schemaNode -> option T) (k : string).
Hypothesis eqb_ok : forall a b, eqb a b = true <-> a = b.
Hypothesis key_merged : forall rec m n s m' s', mergeInto rec m n s = Ok (m', s') -> key m' = getPtr (key n) (key m).
Hypothesis key_warned : forall m n a b, key m = Some a -> key n = Some b -> a <> b -> In k (simpleWarnings m n).
Lemma conflict_into : forall E f nodes m s m' s', intoAll (merge E f) m nodes s = Ok (m', s') ->
  reported k s' \/ (forall a, key m = Some a -> key m' = Some a) /\ (forall n a, In n nodes -> key n = Some a -> key m' = Some a).
Proof.
  intros E f. induction nodes as [|n r IH]; cbn [intoAll]; intros m s m' s' H.
  - apply pret_ok in H. destruct H; subst. right. split; [auto|intros n a []].
  - apply pbind_ok in H. destruct H as (m1 & s1 & H1 & H). pose proof (key_merged _ _ _ _ _ _ H1) as KM.
    assert (ST : keeps E s1 s').
    { revert H. clear. revert m1 s1 m' s'. induction r as [|x r IH]; cbn [intoAll]; intros m1 s1 m' s' H.
      - apply pret_ok in H. destruct H; subst. apply keeps_refl.
      - apply pbind_ok in H. destruct H as (m2 & s2 & H1 & H). eapply keeps_trans; [eapply st_mergeInto; [apply st_merge|exact H1]|]. eapply IH; eauto. }
    destruct (IH _ _ _ _ H) as [R|[A B]]; [left; exact R|].
    destruct (key n) as [b|] eqn:KN.
    + cbn [getPtr] in KM. destruct (key m) as [a|] eqn:KA.
      * destruct (eqb a b) eqn:Q.
        -- apply eqb_ok in Q. subst b. right. split; [intros c C; injection C as <-; auto|]. intros x c [<-|I] C; [rewrite KN in C; injection C as <-; auto|eauto].
        -- left. eapply keeps_reported; [exact ST|]. apply (into_warned _ _ _ _ _ _ H1). apply (key_warned m n a b); auto. intros ->. rewrite (proj2 (eqb_ok b b) eq_refl) in Q. discriminate.
      * right. split; [discriminate|]. intros x c [<-|I] C; [rewrite KN in C; injection C as <-; auto|eauto].
    + cbn [getPtr] in KM. right. split; [intros a KA; apply A; congruence|]. intros x c [<-|I] C; [congruence|eauto].
Qed.
Lemma conflict_reported : forall E fuel nodes s m s', (forall n, In n nodes -> sRef n = None /\ sAllOf n = None) ->
  merge E fuel nodes s = Ok (m, s') -> forall n1 n2 a b, In n1 nodes -> In n2 nodes -> key n1 = Some a -> key n2 = Some b -> a <> b -> reported k s'.
Proof.
  intros E fuel nodes s m s' HN H n1 n2 a b I1 I2 K1 K2 D. apply merge_flat in H; auto. destruct H as (f & _ & H).
  destruct (conflict_into _ _ _ _ _ _ _ H) as [R|[_ B]]; [exact R|]. pose proof (B _ _ I1 K1). pose proof (B _ _ I2 K2). congruence.
Qed.
End Conflict.
