(* multipleOf after merging any number of nodes. *)
From Coq Require Import ZArith Reals List String Bool Lia Lra.
From Flocq Require Import Core BinarySingleNaN.
From Verif Require Import Base Float64 Json Schema Util Number Gen PState PFacts RefPath Merge FloatFacts SpecNumber SpecSchema MergeFacts HcfFacts MergeProps SpecMerge.
Import ListNotations.
Open Scope string_scope.
Open Scope Z_scope.

Lemma one_multiple : forall E f k n a sa b sb, sRef n = None -> sAllOf n = None -> mergeOne E (merge E f) k a n sa = Ok (b, sb) ->
  sMultipleOf b = findHcf (sMultipleOf n) (sMultipleOf a).
Proof.
  intros E f k n a sa b sb R A H. unfold mergeOne, resolveNodeRef in H. rewrite R in H.
  apply pbind_ok in H. destruct H as ([n1' res] & s2 & H2 & H). apply pret_ok in H2. destruct H2 as [H2 ->]. inversion H2; subst n1' res.
  rewrite A in H.
  apply pbind_ok in H. destruct H as (n2' & s3 & H3 & H). apply pret_ok in H3. destruct H3; subst n2' s3.
  apply pbind_ok in H. destruct H as (m2 & s4 & H4 & H). apply pret_ok in H. destruct H; subst m2 s4.
  fields H4. rewrite Em. reflexivity.
Qed.

Lemma hcf_none : forall a, is_finite a = true -> (0 < B2R a)%R -> findHcf (Some a) None = Some a.
Proof.
  intros a F P. unfold findHcf. replace (feqb a fzero) with false; auto. symmetry. apply feqb_neq; auto. reflexivity.
  change (val fzero) with 0%R. unfold val. lra.
Qed.

Lemma product_pos : forall k nodes, (forall n a, In n nodes -> sMultipleOf n = Some a -> shortDecimal k a) -> (1 <= scaledProduct k nodes)%R.
Proof.
  intros k. induction nodes as [|n r IH]; intros H; cbn [scaledProduct]; [lra|].
  specialize (IH (fun x a I => H x a (or_intror I))). destruct (sMultipleOf n) as [a|] eqn:E; [|exact IH].
  destruct (H n a (or_introl eq_refl) E) as (F & P & (u & U)). rewrite U. assert (1 <= IZR u)%R; [|nra].
  apply IZR_le. assert (0 < u); [|lia]. apply lt_IZR. rewrite <- U. apply Rmult_lt_0_compat; [exact P|]. apply IZR_lt, Z.pow_pos_nonneg; lia.
Qed.

Lemma loop_multiple : forall E f g k, (k <= 6)%nat -> forall nodes acc s m s', mergeLoop E (merge E f) g acc nodes s = Ok (m, s') ->
  (forall n, In n nodes -> sRef n = None /\ sAllOf n = None) ->
  (forall n a, In n nodes -> sMultipleOf n = Some a -> shortDecimal k a) ->
  (forall r, sMultipleOf acc = Some r -> shortDecimal k r) ->
  (scaledProduct k (acc :: nodes) <= IZR (2 ^ 53))%R ->
  (forall r, sMultipleOf m = Some r -> shortDecimal k r) /\
  (forall x, okMultipleOf m x -> okMultipleOf acc x /\ forall n, In n nodes -> okMultipleOf n x) /\
  (sMultipleOf m = None -> sMultipleOf acc = None /\ forall n, In n nodes -> sMultipleOf n = None).
Proof.
  intros E f g k K. induction nodes as [|n r IH]; intros acc s m s' H RA SD SA PR; cbn [mergeLoop] in H.
  - apply pret_ok in H. destruct H as [-> ->]. split; [exact SA|]. split; [intros x X; split; [exact X|intros n []]|intros N; split; [exact N|intros n []]].
  - apply pbind_ok in H. destruct H as (acc' & s1 & H1 & H). destruct (RA n (or_introl eq_refl)) as [R A].
    apply one_multiple in H1; auto.
    pose proof (product_pos k r (fun x a I => SD x a (or_intror I))) as PP.
    assert (Q : (forall q, sMultipleOf acc' = Some q -> shortDecimal k q) /\ (scaledProduct k (acc' :: r) <= IZR (2 ^ 53))%R /\
                (forall x, okMultipleOf acc' x -> okMultipleOf acc x /\ okMultipleOf n x) /\
                (sMultipleOf acc' = None -> sMultipleOf acc = None /\ sMultipleOf n = None)).
    { cbn [scaledProduct] in PR |- *. unfold okMultipleOf. destruct (sMultipleOf n) as [a|] eqn:En.
      - destruct (SD n a (or_introl eq_refl) En) as (Fa & Pa & Ua). destruct (sMultipleOf acc) as [b|] eqn:Eb.
        + destruct (SA b eq_refl) as (Fb & Pb & Ub).
          assert (Ob : (0 < B2R b * IZR (10 ^ Z.of_nat k))%R) by (apply Rmult_lt_0_compat; [exact Pb|apply IZR_lt, Z.pow_pos_nonneg; lia]).
          assert (Oa : (0 < B2R a * IZR (10 ^ Z.of_nat k))%R) by (apply Rmult_lt_0_compat; [exact Pa|apply IZR_lt, Z.pow_pos_nonneg; lia]).
          destruct (findHcf_bounded a b k Fa Fb Pa Pb K Ua Ub) as (q & Eq & Fq & Pq & Ma & Mb & Bq).
          { unfold val. nra. }
          rewrite H1, Eq. unfold val in *.
          assert (Sq : shortDecimal k q).
          { split; [exact Fq|]. split; [exact Pq|]. destruct Ma as [j J], Ua as [u U]. exists (j * u). rewrite J, mult_IZR, <- U. ring. }
          split; [intros ? [= <-]; exact Sq|]. split; [nra|]. split; [|discriminate].
          intros x X. destruct (X q eq_refl) as [i ->]. split; intros p [= <-].
          * destruct Mb as [j ->]. exists (i * j). rewrite mult_IZR. ring.
          * destruct Ma as [j ->]. exists (i * j). rewrite mult_IZR. ring.
        + rewrite hcf_none in H1 by auto. rewrite H1. split; [intros ? [= <-]; exact (conj Fa (conj Pa Ua))|]. split; [exact PR|]. split; [|discriminate].
          intros x X. split; [intros p; discriminate|exact X].
      - cbn [findHcf] in H1. rewrite H1. split; [exact SA|]. split; [exact PR|]. split; [intros x X; split; [exact X|intros p; discriminate]|auto]. }
    destruct Q as (Q1 & Q2 & Q3 & Q4).
    destruct (IH _ _ _ _ H (fun x I => RA x (or_intror I)) (fun x a I => SD x a (or_intror I)) Q1 Q2) as (T1 & T2 & T3).
    split; [exact T1|]. split.
    + intros x X. destruct (T2 x X) as [Y Z]. destruct (Q3 x Y) as [Y1 Y2]. split; [exact Y1|]. intros y [<-|I]; [exact Y2|exact (Z y I)].
    + intros N. destruct (T3 N) as [Y Z]. destruct (Q4 Y) as [Y1 Y2]. split; [exact Y1|]. intros y [<-|I]; [exact Y2|exact (Z y I)].
Qed.

Theorem merge_multiples : forall E fuel nodes s m s' k, merge E fuel nodes s = Ok (m, s') -> (k <= 6)%nat ->
  (forall n, In n nodes -> sRef n = None /\ sAllOf n = None) ->
  (forall n a, In n nodes -> sMultipleOf n = Some a -> shortDecimal k a) ->
  (scaledProduct k nodes <= IZR (2 ^ 53))%R ->
  (forall x, okMultipleOf m x -> forall n, In n nodes -> okMultipleOf n x) /\
  ((exists n, In n nodes /\ sMultipleOf n <> None) -> exists r, sMultipleOf m = Some r /\ (0 < B2R r)%R).
Proof.
  intros E fuel nodes s m s' k H K RA SD PR. destruct fuel as [|f]; [discriminate|]. cbn [merge] in H.
  apply pbind_ok in H. destruct H as (m1 & s1 & H1 & H).
  assert (HA : sAllOf m1 = None).
  { eapply loop_noAllOf; [exact H1|reflexivity|]. intros n I. destruct (RA n I); auto. }
  assert (M : m1 = m). { destruct f; simpl in H; [discriminate|]. rewrite HA in H. apply pret_ok in H. destruct H; auto. }
  subst m1. destruct (loop_multiple _ _ _ _ K _ _ _ _ _ H1 RA SD) as (T1 & T2 & T3); [intros r; discriminate|exact PR|].
  split; [intros x X; exact (proj2 (T2 x X))|]. intros (n & I & N). destruct (sMultipleOf m) as [r|].
  - exists r. split; [reflexivity|]. destruct (T1 r eq_refl) as (_ & P & _). exact P.
  - elim N. exact (proj2 (T3 eq_refl) n I).
Qed.
