(* Two runs compared: more fuel changes nothing, and a run depends on the random sources only through
   the draws still to come. *)
From Coq Require Import ZArith List String Bool Lia.
From Flocq Require Import Core BinarySingleNaN.
From Verif Require Import Base Float64 Json Schema Util Rand Options Number Gen.
Import ListNotations.
Open Scope string_scope.
Open Scope Z_scope.

(* the options without the four defaults generation never reads *)
Definition core (o : genOptions) : genOptions :=
  mkOpts 0 0 0 0 (oDefaultArrayMinItems o) (oDefaultArrayMaxItems o) (oDefaultObjectMinProperties o)
    (oDefaultObjectMaxProperties o) (oMaximumReferenceDepth o) (oBypassCyclicReferenceCheck o)
    (oSuppressFallbackValues o) (oMaximumUniqueGeneratorAttempts o) (oMaximumIfAttempts o)
    (oMaximumOneOfAttempts o) (oMaximumGenerationSteps o) (oCutoffGenerationSteps o).

Section Rel.
Variables E1 E2 : env.
(* the two environments agree on everything but the random streams *)
Definition sameEnv : Prop :=
  core (eOpts E1) = core (eOpts E2) /\ eRefs E1 = eRefs E2 /\ eSentence E1 = eSentence E2 /\ eFormat E1 = eFormat E2 /\
  eRegen E1 = eRegen E2 /\ eValid E1 = eValid E2 /\ eMatch E1 = eMatch E2 /\ eIsFormat E1 = eIsFormat E2.
(* the two states agree on everything observable from now on *)
Definition sim (s1 s2 : gst) : Prop :=
  (forall i, eRand E1 (gPos s1 + i) = eRand E2 (gPos s2 + i)) /\
  (forall i, eGlob E1 (gGlob s1 + i) = eGlob E2 (gGlob s2 + i)) /\
  gCx s1 = gCx s2 /\ gStack s1 = gStack s2 /\ gLog s1 = gLog s2.

(* the two runs consumed the same number of draws *)
Definition adv (s1 t1 s2 t2 : gst) : Prop :=
  exists a b, gPos t1 = (gPos s1 + a)%nat /\ gPos t2 = (gPos s2 + a)%nat /\
              gGlob t1 = (gGlob s1 + b)%nat /\ gGlob t2 = (gGlob s2 + b)%nat.

Definition rel {A} (m1 m2 : M A) : Prop :=
  forall s1 s2, sim s1 s2 ->
  match m1 s1 with
  | Timeout => True
  | Panic w => m2 s2 = Panic w
  | Ok (v, t1) => exists t2, m2 s2 = Ok (v, t2) /\ sim t1 t2 /\ adv s1 t1 s2 t2
  end.

Hypothesis HE : sameEnv.

Lemma adv0 : forall s1 t1 s2 t2, gPos t1 = gPos s1 -> gPos t2 = gPos s2 -> gGlob t1 = gGlob s1 -> gGlob t2 = gGlob s2 ->
  adv s1 t1 s2 t2.
Proof. unfold adv; intros. exists 0%nat, 0%nat. lia. Qed.

Lemma rel_ret : forall A (a : A), rel (ret a) (ret a).
Proof. unfold rel, ret; intros. eexists; split; [reflexivity|]. split; auto. apply adv0; auto. Qed.

Lemma rel_bind : forall A B (m1 m2 : M A) (k1 k2 : A -> M B),
  rel m1 m2 -> (forall a, rel (k1 a) (k2 a)) -> rel (bindM m1 k1) (bindM m2 k2).
Proof.
  unfold rel, bindM; intros. specialize (H _ _ H1). destruct (m1 s1) as [[a t1]| |]; auto.
  - destruct H as (t2 & -> & Ht & x & y & Hx). specialize (H0 a t1 t2 Ht).
    destruct (k1 a t1) as [[v u1]| |]; auto. destruct H0 as (u2 & -> & Hu & x' & y' & Hx').
    exists u2. repeat split; auto; try apply Hu. exists (x + x')%nat, (y + y')%nat. lia.
  - rewrite H. reflexivity.
Qed.

Lemma rel_lift : forall A (r : res A), rel (lift r) (lift r).
Proof. unfold rel, lift; intros. destruct r; auto. eexists; split; [reflexivity|]. split; auto. apply adv0; auto. Qed.

Ltac prim := intros; match goal with H : sim ?s1 ?s2 |- _ => destruct H as (? & ? & ? & ? & ?) end;
  eexists; split; [reflexivity|]; split; [unfold sim; simpl; intuition congruence | apply adv0; reflexivity].
Lemma rel_tick : rel tick tick.
Proof. unfold rel, tick; prim. Qed.
Lemma rel_emit : forall e, rel (emit e) (emit e).
Proof. unfold rel, emit; prim. Qed.
Lemma rel_getCx : rel getCx getCx.
Proof.
  unfold rel, getCx; intros s1 s2 H. exists s2. split; [|split; auto; apply adv0; auto].
  destruct H as (_ & _ & -> & _). auto.
Qed.
Lemma rel_getStack : rel getStack getStack.
Proof.
  unfold rel, getStack; intros s1 s2 H. exists s2. split; [|split; auto; apply adv0; auto].
  destruct H as (_ & _ & _ & -> & _). auto.
Qed.
Lemma rel_pushRef : forall k, rel (pushRef k) (pushRef k).
Proof. unfold rel, pushRef; prim. Qed.
Lemma rel_popRef : rel popRef popRef.
Proof. unfold rel, popRef; prim. Qed.

Lemma shiftS : forall (f g : nat -> Z) a b n, (forall i, f (a + i)%nat = g (b + i)%nat) ->
  forall i, f (a + n + i)%nat = g (b + n + i)%nat.
Proof. intros. rewrite <- !Nat.add_assoc. apply H. Qed.

Lemma rel_draws : forall n, rel (draws E1 n) (draws E2 n).
Proof.
  unfold rel, draws; intros n s1 s2 (H1 & H2 & ? & ? & ?). eexists; split; [|split].
  - f_equal. f_equal. apply map_ext. intros. symmetry. apply H1.
  - unfold sim; simpl. repeat split; auto. apply shiftS; auto.
  - exists n, 0%nat. simpl. lia.
Qed.
Lemma rel_globDraws : forall n, rel (globDraws E1 n) (globDraws E2 n).
Proof.
  unfold rel, globDraws; intros n s1 s2 (H1 & H2 & ? & ? & ?). eexists; split; [|split].
  - f_equal. f_equal. apply map_ext. intros. symmetry. apply H2.
  - unfold sim; simpl. repeat split; auto. apply shiftS; auto.
  - exists 0%nat, n. simpl. lia.
Qed.
Lemma rel_draw : rel (draw E1) (draw E2).
Proof.
  unfold rel, draw; intros s1 s2 (H1 & H2 & ? & ? & ?). eexists; split; [|split].
  - f_equal. f_equal. specialize (H1 0%nat). rewrite !Nat.add_0_r in H1. auto.
  - unfold sim; simpl. repeat split; auto. intros i. specialize (H1 (S i)). rewrite !Nat.add_succ_r in H1. auto.
  - exists 1%nat, 0%nat. simpl. lia.
Qed.
Lemma rel_globDraw : rel (globDraw E1) (globDraw E2).
Proof.
  unfold rel, globDraw; intros s1 s2 (H1 & H2 & ? & ? & ?). eexists; split; [|split].
  - f_equal. f_equal. specialize (H2 0%nat). rewrite !Nat.add_0_r in H2. auto.
  - unfold sim; simpl. repeat split; auto. intros i. specialize (H2 (S i)). rewrite !Nat.add_succ_r in H2. auto.
  - exists 0%nat, 1%nat. simpl. lia.
Qed.

Variables G1 G2 : gen -> M json.
Hypothesis HG : forall g, rel (G1 g) (G2 g).

Ltac destructHE := destruct HE as (EO & ER & ES & EF & EG & EV & EM & EI).

Ltac rewO := repeat match goal with HO : core (eOpts E1) = core (eOpts E2) |- context [?f (eOpts E1)] =>
  let H := fresh in assert (H : f (eOpts E1) = f (eOpts E2)) by exact (f_equal f HO); rewrite H; clear H end.

(* structural steps *)
Ltac go := repeat (intros; first
  [ assumption
  | match goal with |- rel (bindM _ _) (bindM _ _) => apply rel_bind end
  | match goal with |- rel (ret _) (ret _) => apply rel_ret end
  | match goal with |- rel (lift _) (lift _) => apply rel_lift end
  | apply rel_tick | apply rel_emit | apply rel_getCx | apply rel_getStack
  | apply rel_pushRef | apply rel_popRef | apply rel_draw | apply rel_globDraw | apply rel_draws | apply rel_globDraws
  | apply HG
  | match goal with |- rel (if ?b then _ else _) (if ?b then _ else _) => destruct b end
  | match goal with |- rel (match ?x with _ => _ end) (match ?x with _ => _ end) => destruct x end ]).

Lemma rel_drawInt : forall a b, rel (drawInt E1 a b) (drawInt E2 a b).
Proof. intros. unfold drawInt. go. Qed.
Lemma rel_cutoff : rel (cutoff E1) (cutoff E2).
Proof. destructHE. unfold cutoff. rewO. go. Qed.
Lemma rel_minimize : rel (minimize E1) (minimize E2).
Proof. destructHE. unfold minimize. rewO. go. Qed.
Lemma rel_budget : forall b, rel (budget E1 b) (budget E2 b).
Proof. destructHE. intros. unfold budget. rewO. go. Qed.
Lemma rel_guarded : forall m1 m2, rel m1 m2 -> rel (guarded E1 m1) (guarded E2 m2).
Proof. intros. unfold guarded. go. intros; apply rel_cutoff. Qed.

Lemma rel_fillString : forall n mn acc, rel (fillString E1 n mn acc) (fillString E2 n mn acc).
Proof.
  induction n; intros; simpl; [apply rel_lift|]. go. intros; destructHE; rewrite ES; auto.
Qed.
Lemma rel_generateFormat : forall f, rel (generateFormat E1 f) (generateFormat E2 f).
Proof. intros. unfold generateFormat. destructHE. rewrite EF. go. intros; apply rel_drawInt. Qed.
Lemma rel_genString : forall f p mn mx, rel (genString E1 f p mn mx) (genString E2 f p mn mx).
Proof.
  intros. unfold genString. go; try (intros; apply rel_generateFormat).
  - intros; destructHE; rewrite EG; go.
  - intros; destructHE. rewrite ES. intros; apply rel_fillString.
Qed.
Lemma rel_genNumber : forall g, rel (genNumber E1 g) (genNumber E2 g).
Proof. intros. unfold genNumber. go. Qed.

Lemma rel_genAll : forall gs, rel (genAll G1 gs) (genAll G2 gs).
Proof. induction gs; simpl; go. Qed.
Lemma rel_uniqueTry : forall n g seen, rel (uniqueTry E1 G1 n g seen) (uniqueTry E2 G2 n g seen).
Proof.
  induction n; intros; simpl.
  - destructHE. unfold uniqueWarning. rewO. go.
  - go. intros; apply IHn.
Qed.
Lemma rel_genItem : forall u g d, rel (genItem E1 G1 u g d) (genItem E2 G2 u g d).
Proof. intros. unfold genItem. destruct u; [|go]. destructHE. rewO. intros; apply rel_uniqueTry. Qed.
Lemma rel_containsLoop : forall n i k u g d, rel (containsLoop E1 G1 n i k u g d) (containsLoop E2 G2 n i k u g d).
Proof. induction n; intros; simpl; go. intros; apply rel_genItem. intros; apply IHn. Qed.
Lemma rel_itemsLoop : forall n i k mn u g d, rel (itemsLoop E1 G1 n i k mn u g d) (itemsLoop E2 G2 n i k mn u g d).
Proof. induction n; intros; simpl; go. intros; apply rel_genItem. intros; apply IHn. Qed.
Lemma rel_genArray : forall t i a c u cf, rel (genArray E1 G1 t i a c u cf) (genArray E2 G2 t i a c u cf).
Proof.
  intros. unfold genArray. apply rel_guarded. destructHE. rewO.
  go; try (intros; apply rel_genAll); try (intros; apply rel_containsLoop); try (intros; apply rel_drawInt); try (intros; apply rel_minimize); try (intros; apply rel_itemsLoop).
Qed.

Lemma rel_genKey : forall pre p k, rel (genKey E1 G1 pre p k) (genKey E2 G2 pre p k).
Proof. intros. unfold genKey. go. intros; apply rel_drawInt. Qed.
Lemma rel_genKeys : forall pre p ks m, rel (genKeys E1 G1 pre p ks m) (genKeys E2 G2 pre p ks m).
Proof. induction ks; intros; simpl; go. intros; apply rel_genKey. intros; apply IHks. Qed.
Lemma rel_stringChoiceMultiple : forall l n, rel (stringChoiceMultiple E1 l n) (stringChoiceMultiple E2 l n).
Proof. intros. unfold stringChoiceMultiple. go. Qed.
Lemma rel_genPattern : forall pp, rel (genPattern E1 G1 pp) (genPattern E2 G2 pp).
Proof. intros. unfold genPattern. destructHE. rewrite EG. go. Qed.
Lemma rel_patternLoop : forall n pp m, rel (patternLoop E1 G1 n pp m) (patternLoop E2 G2 n pp m).
Proof. induction n; intros; simpl; go. intros; apply rel_genPattern. intros; apply IHn. Qed.
Lemma rel_additionalLoop : forall n i g m, rel (additionalLoop G1 n i g m) (additionalLoop G2 n i g m).
Proof. induction n; intros; simpl; go. intros; apply IHn. Qed.
Lemma rel_fallbackLoop : forall n i mn m, rel (fallbackLoop E1 G1 n i mn m) (fallbackLoop E2 G2 n i mn m).
Proof. induction n; intros; simpl; [go|]. destructHE. rewO. go; intros; apply IHn. Qed.
Lemma rel_fillerLoop : forall n i g m, rel (fillerLoop G1 n i g m) (fillerLoop G2 n i g m).
Proof. induction n; intros; simpl; go. intros; apply IHn. Qed.
Lemma rel_fillMinimum : forall mn a m, rel (fillMinimum G1 mn a m) (fillMinimum G2 mn a m).
Proof. intros. unfold fillMinimum. go. intros; apply rel_fillerLoop. Qed.
Lemma rel_genObject : forall p pp a c, rel (genObject E1 G1 p pp a c) (genObject E2 G2 p pp a c).
Proof.
  intros. unfold genObject. apply rel_guarded. destructHE. rewO.
  go; try (intros; apply rel_genKeys); try (intros; apply rel_drawInt); try (intros; apply rel_minimize); try (intros; apply rel_stringChoiceMultiple);
    try (intros; apply rel_additionalLoop); try (intros; apply rel_fallbackLoop); try (intros; apply rel_fillMinimum); try (intros; apply rel_patternLoop).
Qed.

Lemma rel_genOneOf : forall gs, rel (genOneOf E1 G1 gs) (genOneOf E2 G2 gs).
Proof. intros. unfold genOneOf. go. intros; apply rel_drawInt. Qed.

Lemma same_multiPassed : forall c v, multiPassed E1 c v = multiPassed E2 c v.
Proof. intros. destructHE. unfold multiPassed, isStrMatching. rewrite EM, EI. reflexivity. Qed.
Lemma rel_multiTry : forall n c g v, rel (multiTry E1 G1 n c g v) (multiTry E2 G2 n c g v).
Proof. induction n; intros; simpl; [go|]. rewrite same_multiPassed. go. intros; apply IHn. Qed.
Lemma rel_oneOfTry : forall n l g v, rel (oneOfTry E1 G1 n l g v) (oneOfTry E2 G2 n l g v).
Proof.
  induction n; intros; simpl; [go|].
  assert (X : oneOfPassed E1 l v = oneOfPassed E2 l v) by (destructHE; unfold oneOfPassed; rewrite EV; reflexivity).
  rewrite X. go. intros; apply IHn.
Qed.
Lemma rel_ifAttempt : forall c v, rel (ifAttempt E1 G1 c v) (ifAttempt E2 G2 c v).
Proof. intros [c [t e]] v. unfold ifAttempt. destructHE. rewrite EV. go. Qed.
Lemma rel_ifPass : forall idx l v, rel (ifPass E1 G1 idx l v) (ifPass E2 G2 idx l v).
Proof. induction idx; intros; simpl; go. intros; apply rel_ifAttempt. intros; apply IHidx. Qed.
Lemma rel_ifTry : forall n l g v, rel (ifTry E1 G1 n l g v) (ifTry E2 G2 n l g v).
Proof. induction n; intros; cbn [ifTry]; go. intros; apply rel_ifPass. intros; apply IHn. Qed.
Lemma rel_applyConstr : forall g c v, rel (applyConstr E1 G1 g c v) (applyConstr E2 G2 g c v).
Proof.
  intros g [cc|l|l] v; simpl; destructHE; rewO; apply rel_bind; try (intros; apply rel_budget); intros;
    [intros; apply rel_multiTry | intros; apply rel_oneOfTry | intros; apply rel_ifTry].
Qed.
Lemma rel_applyAll : forall g cs v, rel (applyAll E1 G1 g cs v) (applyAll E2 G2 g cs v).
Proof. induction cs; intros; simpl; go. intros; apply rel_applyConstr. intros; apply IHcs. Qed.
Lemma rel_genConstrained : forall g cs, rel (genConstrained E1 G1 g cs) (genConstrained E2 G2 g cs).
Proof. intros. unfold genConstrained. go. intros; apply rel_cutoff. intros; apply rel_applyAll. Qed.
Lemma rel_genRef : forall d p, rel (genRef E1 G1 d p) (genRef E2 G2 d p).
Proof.
  intros. unfold genRef. apply rel_guarded.
  assert (X : lookup E1 d p = lookup E2 d p) by (destructHE; unfold lookup; rewrite ER; reflexivity).
  rewrite X. destructHE. rewO. go.
Qed.

Theorem rel_genStep : forall g, rel (genStep E1 G1 g) (genStep E2 G2 g).
Proof.
  intros []; simpl; try solve [go].
  - apply rel_genNumber.
  - apply rel_genString.
  - apply rel_genArray.
  - apply rel_genObject.
  - apply rel_genOneOf.
  - apply rel_guarded, rel_genOneOf.
  - apply rel_genRef.
  - apply rel_genConstrained.
Qed.
End Rel.

Theorem rel_generate : forall E1 E2, sameEnv E1 E2 ->
  forall n m g, (n <= m)%nat -> rel E1 E2 (generate E1 n g) (generate E2 m g).
Proof.
  intros E1 E2 HE. induction n; intros m g Hm; simpl.
  - unfold rel, lift. auto.
  - destruct m; [lia|]. simpl. apply rel_genStep; auto. intros. apply IHn. lia.
Qed.

Lemma sameEnv_refl : forall E, sameEnv E E.
Proof. unfold sameEnv; intuition. Qed.

Lemma adv_same : forall s t1 t2, adv s t1 s t2 -> gPos t1 = gPos t2 /\ gGlob t1 = gGlob t2.
Proof. unfold adv; intros s t1 t2 (a & b & ?). lia. Qed.

(* fuel beyond what is needed changes nothing *)
Theorem generate_fuel : forall E n m g s, (n <= m)%nat -> generate E n g s <> Timeout ->
  generate E m g s = generate E n g s.
Proof.
  intros E n m g s H H0.
  pose proof (rel_generate E E (sameEnv_refl E) n m g H s s) as R.
  assert (S : sim E E s s) by (unfold sim; intuition). specialize (R S).
  destruct (generate E n g s) as [[v s1]| |]; auto; [|congruence].
  destruct R as (s2 & -> & (_ & _ & A1 & A2 & A3) & A). apply adv_same in A. destruct A as [A4 A5].
  f_equal. f_equal. destruct s1, s2; simpl in *; congruence.
Qed.

(* the streams as seen from draw p / q on *)
Definition shiftEnv (p q : nat) (E : env) : env :=
  mkEnv (eOpts E) (eRefs E) (fun i => eRand E (p + i)) (fun i => eGlob E (q + i)) (eSentence E)
        (eFormat E) (eRegen E) (eValid E) (eMatch E) (eIsFormat E).

Theorem generate_shift : forall E n g p q,
  match generate E n g (initG p q) with
  | Ok (v, s) => exists s', generate (shiftEnv p q E) n g (initG 0 0) = Ok (v, s') /\
                 gPos s = (p + gPos s')%nat /\ gGlob s = (q + gGlob s')%nat /\ gLog s = gLog s' /\ gCx s = gCx s'
  | Panic w => generate (shiftEnv p q E) n g (initG 0 0) = Panic w
  | Timeout => generate (shiftEnv p q E) n g (initG 0 0) = Timeout
  end.
Proof.
  intros.
  assert (HE : sameEnv E (shiftEnv p q E)) by (unfold sameEnv; simpl; intuition).
  assert (HE' : sameEnv (shiftEnv p q E) E) by (unfold sameEnv; simpl; intuition).
  assert (S : sim E (shiftEnv p q E) (initG p q) (initG 0 0)) by (unfold sim; simpl; intuition).
  assert (S' : sim (shiftEnv p q E) E (initG 0 0) (initG p q)) by (unfold sim; simpl; intuition).
  pose proof (rel_generate _ _ HE n n g ltac:(lia) _ _ S) as R.
  pose proof (rel_generate _ _ HE' n n g ltac:(lia) _ _ S') as R'.
  destruct (generate E n g (initG p q)) as [[v s]| |].
  - destruct R as (s' & -> & (_ & _ & A1 & A2 & A3) & (a & b & A4 & A5 & A6 & A7)).
    exists s'. simpl in *. repeat split; auto; lia.
  - exact R.
  - destruct (generate (shiftEnv p q E) n g (initG 0 0)) as [[v s]| |]; auto.
    destruct R' as (s' & X & _). discriminate X.
Qed.

(* the four defaults for numbers and strings are read by nothing *)
Theorem generate_core : forall E E' n g s, sameEnv E E' -> eRand E = eRand E' -> eGlob E = eGlob E' ->
  generate E n g s = generate E' n g s.
Proof.
  intros E E' n g s HE HR HB.
  assert (HE' : sameEnv E' E) by (unfold sameEnv in *; intuition).
  assert (S : sim E E' s s) by (unfold sim; rewrite HR, HB; intuition).
  assert (S' : sim E' E s s) by (unfold sim; rewrite HR, HB; intuition).
  pose proof (rel_generate _ _ HE n n g ltac:(lia) _ _ S) as R.
  pose proof (rel_generate _ _ HE' n n g ltac:(lia) _ _ S') as R'.
  destruct (generate E n g s) as [[v s1]| |].
  - destruct R as (s2 & -> & (_ & _ & A1 & A2 & A3) & A). apply adv_same in A. destruct A as [A4 A5].
    f_equal. f_equal. destruct s1, s2; simpl in *; congruence.
  - symmetry; exact R.
  - destruct (generate E' n g s) as [[v s1]| |]; auto.
    destruct R' as (s2 & X & _). discriminate X.
Qed.
