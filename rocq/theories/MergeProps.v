(* Bounds, enum/const and multipleOf after a merge. *)
From Coq Require Import ZArith Reals List String Bool Lia Lra Permutation.
From Flocq Require Import Core BinarySingleNaN.
From Verif Require Import Base Float64 Json Schema Util Number Gen Codec PState PFacts RefPath Merge NotMerge Parse ParseKeep FloatFacts SpecNumber SpecSchema MergeFacts HcfFacts.
Import ListNotations.
Open Scope string_scope.
Open Scope Z_scope.

(* ------------------------------------------------------------------ bounds *)
Lemma range_max : forall a b hi z, okRange (maxIntPtr a b) hi z <-> okRange a hi z /\ okRange b hi z.
Proof.
  intros. unfold okRange, maxIntPtr. destruct a as [x|], b as [y|].
  - destruct (Z.ltb_spec x y); split.
    + intros [H1 H2]. specialize (H1 _ eq_refl). repeat split; auto; intros ? E; inversion E; subst; lia.
    + intros [[H1 H2] [H3 _]]. split; auto.
    + intros [H1 H2]. specialize (H1 _ eq_refl). repeat split; auto; intros ? E; inversion E; subst; lia.
    + intros [[H1 H2] [H3 _]]. split; auto.
  - split; [intros [H1 H2]; repeat split; auto; discriminate|tauto].
  - split; [intros [H1 H2]; repeat split; auto; discriminate|tauto].
  - tauto.
Qed.
Lemma range_min : forall a b lo z, okRange lo (minIntPtr a b) z <-> okRange lo a z /\ okRange lo b z.
Proof.
  intros. unfold okRange, minIntPtr. destruct a as [x|], b as [y|].
  - destruct (Z.ltb_spec y x); split.
    + intros [H1 H2]. specialize (H2 _ eq_refl). repeat split; auto; intros ? E; inversion E; subst; lia.
    + intros [[H1 H2] [_ H3]]. split; auto.
    + intros [H1 H2]. specialize (H2 _ eq_refl). repeat split; auto; intros ? E; inversion E; subst; lia.
    + intros [[H1 H2] [_ H3]]. split; auto.
  - split; [intros [H1 H2]; repeat split; auto; discriminate|tauto].
  - split; [intros [H1 H2]; repeat split; auto; discriminate|tauto].
  - tauto.
Qed.
Lemma range_both : forall a b a' b' z,
  okRange (maxIntPtr a b) (minIntPtr a' b') z <-> okRange b b' z /\ okRange a a' z.
Proof.
  intros. rewrite range_max, !range_min. split; [tauto|]. unfold okRange. tauto.
Qed.

Open Scope R_scope.
Definition fin' (o : option f64) : Prop := match o with Some x => is_finite x = true | None => True end.
Lemma fmax_ok : forall a b, fin' a -> fin' b -> fin' (maxFloatPtr a b) /\
  forall x, ((forall c, maxFloatPtr a b = Some c -> B2R c <= x) <-> (forall c, a = Some c -> B2R c <= x) /\ (forall c, b = Some c -> B2R c <= x)) /\
            ((forall c, maxFloatPtr a b = Some c -> B2R c < x) <-> (forall c, a = Some c -> B2R c < x) /\ (forall c, b = Some c -> B2R c < x)).
Proof.
  intros [u|] [v|]; simpl; intros Hu Hv; auto.
  - destruct (fltb u v) eqn:L; (split; [auto|]); intros x.
    + apply fltb_lt in L; auto. unfold val in L. split; split.
      * intros H. specialize (H _ eq_refl). split; intros ? E; inversion E; subst; lra.
      * intros [H1 H2]. auto.
      * intros H. specialize (H _ eq_refl). split; intros ? E; inversion E; subst; lra.
      * intros [H1 H2]. auto.
    + apply fltb_ge in L; auto. unfold val in L. split; split.
      * intros H. specialize (H _ eq_refl). split; intros ? E; inversion E; subst; lra.
      * intros [H1 H2]. auto.
      * intros H. specialize (H _ eq_refl). split; intros ? E; inversion E; subst; lra.
      * intros [H1 H2]. auto.
  - split; auto. intros x. split; (split; [intros H; split; [exact H|discriminate]|tauto]).
  - split; auto. intros x. split; (split; [intros H; split; [discriminate|exact H]|tauto]).
  - split; auto. intros x. split; (split; [intros H; split; discriminate|intros _; discriminate]).
Qed.
Lemma fmin_ok : forall a b, fin' a -> fin' b -> fin' (minFloatPtr a b) /\
  forall x, ((forall c, minFloatPtr a b = Some c -> x <= B2R c) <-> (forall c, a = Some c -> x <= B2R c) /\ (forall c, b = Some c -> x <= B2R c)) /\
            ((forall c, minFloatPtr a b = Some c -> x < B2R c) <-> (forall c, a = Some c -> x < B2R c) /\ (forall c, b = Some c -> x < B2R c)).
Proof.
  intros [u|] [v|]; simpl; intros Hu Hv; auto.
  - destruct (fltb v u) eqn:L; (split; [auto|]); intros x.
    + apply fltb_lt in L; auto. unfold val in L. split; split.
      * intros H. specialize (H _ eq_refl). split; intros ? E; inversion E; subst; lra.
      * intros [H1 H2]. auto.
      * intros H. specialize (H _ eq_refl). split; intros ? E; inversion E; subst; lra.
      * intros [H1 H2]. auto.
    + apply fltb_ge in L; auto. unfold val in L. split; split.
      * intros H. specialize (H _ eq_refl). split; intros ? E; inversion E; subst; lra.
      * intros [H1 H2]. auto.
      * intros H. specialize (H _ eq_refl). split; intros ? E; inversion E; subst; lra.
      * intros [H1 H2]. auto.
  - split; auto. intros x. split; (split; [intros H; split; [exact H|discriminate]|tauto]).
  - split; auto. intros x. split; (split; [intros H; split; [discriminate|exact H]|tauto]).
  - split; auto. intros x. split; (split; [intros H; split; discriminate|intros _; discriminate]).
Qed.

Ltac fields H :=
  apply mergeInto_fields in H;
  let props := fresh "props" in let addp := fresh "addp" in let patp := fresh "patp" in let pre := fresh "pre" in
  let its := fresh "its" in let addi := fresh "addi" in let unev := fresh "unev" in let cont := fresh "cont" in
  let nt := fresh "nt" in let mn := fresh "mn" in let mi := fresh "mi" in
  let s1 := fresh "s1" in let s2 := fresh "s2" in let s3 := fresh "s3" in let s4 := fresh "s4" in let s5 := fresh "s5" in
  let s6 := fresh "s6" in let s7 := fresh "s7" in let s8 := fresh "s8" in let s9 := fresh "s9" in
  let Hs1 := fresh "Hs1" in let H1 := fresh "H1" in let H2 := fresh "H2" in let H3 := fresh "H3" in let H4 := fresh "H4" in
  let H5 := fresh "H5" in let H6 := fresh "H6" in let H7 := fresh "H7" in let H8 := fresh "H8" in let H9 := fresh "H9" in
  let Em := fresh "Em" in let Emi := fresh "Emi" in let Ent := fresh "Ent" in let Emn := fresh "Emn" in
  destruct H as (props & addp & patp & pre & its & addi & unev & cont & nt & mn & mi & s1 & s2 & s3 & s4 & s5 & s6 & s7 & s8 & s9 &
                 Hs1 & H1 & H2 & H3 & H4 & H5 & H6 & H7 & H8 & H9 & Em & Emi & Ent & Emn).

Lemma into_bounds : forall rec m n s m' s', mergeInto rec m n s = Ok (m', s') -> finiteBounds m -> finiteBounds n ->
  finiteBounds m' /\ forall len items contains props x,
    (boundsHold m' len items contains props x <-> boundsHold m len items contains props x /\ boundsHold n len items contains props x).
Proof.
  intros rec m n s m' s' H Fm Fn. fields H. clear -Em Fm Fn. subst m'.
  destruct Fm as (F1 & F2 & F3 & F4), Fn as (F1' & F2' & F3' & F4').
  unfold finiteBounds, boundsHold, okBounds, okMinimum, okMaximum, okExclusiveMinimum, okExclusiveMaximum.
  cbn [sMinimum sMaximum sExclusiveMinimum sExclusiveMaximum sMinLength sMaxLength sMinItems sMaxItems sMinContains sMaxContains sMinProperties sMaxProperties].
  destruct (fmax_ok _ _ F1' F1) as [G1 K1], (fmin_ok _ _ F2' F2) as [G2 K2], (fmax_ok _ _ F3' F3) as [G3 K3], (fmin_ok _ _ F4' F4) as [G4 K4].
  split; [repeat split; assumption|].
  intros. rewrite !range_both, (proj1 (K1 x)), (proj1 (K2 x)), (proj2 (K3 x)), (proj2 (K4 x)). tauto.
Qed.

Definition mergeable (n : schemaNode) : Prop := forall c, conjunct c n -> sRef c = None /\ finiteBounds c.

Theorem merge_bounds : forall E fuel nodes s m s' len items contains props x,
  merge E fuel nodes s = Ok (m, s') ->
  (forall n, In n nodes -> mergeable n) ->
  ((forall c, conjunct c m -> boundsHold c len items contains props x) <->
   (forall n, In n nodes -> forall c, conjunct c n -> boundsHold c len items contains props x)).
Proof.
  intros E fuel nodes s m s' len items contains props x H Hn.
  destruct (merge_conj E (fun c => boundsHold c len items contains props x) finiteBounds (fun _ => False)
    (fun _ _ f => f)) with (f := fuel) (nodes := nodes) (s := s) (m := m) (s' := s') as [_ [D|[]]]; auto.
  - unfold boundsHold, okRange, okBounds, okMinimum, okMaximum, okExclusiveMinimum, okExclusiveMaximum. cbn. repeat split; discriminate.
  - unfold finiteBounds. cbn. auto.
  - intros rec _ m0 n0 s0 m1 s1 H1 G1 G2. destruct (into_bounds _ _ _ _ _ _ H1 G1 G2) as [A B]. split; auto.
  - intros. reflexivity.
  - intros. reflexivity.
Qed.

(* without allOf in the nodes there is none in the result *)
Lemma loop_noAllOf : forall E rec fuel nodes m s m' s', mergeLoop E rec fuel m nodes s = Ok (m', s') ->
  sAllOf m = None -> (forall n, In n nodes -> sRef n = None /\ sAllOf n = None) -> sAllOf m' = None.
Proof.
  induction nodes as [|n r IH]; simpl; intros m s m' s' H Hm Hn.
  - apply pret_ok in H. destruct H; subst; auto.
  - apply pbind_ok in H. destruct H as (m1 & s1 & H1 & H).
    destruct (Hn n (or_introl eq_refl)) as [R A].
    unfold mergeOne, resolveNodeRef in H1. rewrite R in H1.
    apply pbind_ok in H1. destruct H1 as ([n1 res] & s2 & H2 & H1). apply pret_ok in H2. destruct H2 as [H2 ->]. inversion H2; subst n1 res.
    rewrite A in H1.
    apply pbind_ok in H1. destruct H1 as (n2 & s3 & H3 & H1). apply pret_ok in H3. destruct H3; subst n2 s3.
    apply pbind_ok in H1. destruct H1 as (m2 & s4 & H4 & H1). apply pret_ok in H1. destruct H1; subst m2 s4.
    eapply IH; eauto. fields H4. rewrite Em. cbn [sAllOf]. rewrite Hm, A. reflexivity.
Qed.
Lemma merge_noAllOf : forall E fuel nodes s m s', merge E fuel nodes s = Ok (m, s') ->
  (forall n, In n nodes -> sRef n = None /\ sAllOf n = None) -> sAllOf m = None.
Proof.
  intros E [|f] nodes s m s' H Hn; simpl in H; [discriminate|].
  apply pbind_ok in H. destruct H as (m1 & s1 & H1 & H).
  apply loop_noAllOf in H1; auto.
  destruct f; simpl in H; [discriminate|]. rewrite H1 in H. apply pret_ok in H. destruct H; subst; auto.
Qed.

(* ------------------------------------------------------------------ enum and const *)
Definition oneList (n : schemaNode) : Prop := sEnum n = None \/ sConst n = None.
Definition reportedEnum (errs : list ((string * string) * string)) : Prop :=
  exists doc path, In ((doc, path ++ "/config_merge_error"), "enum/const") errs.

Lemma listed_collect : forall n v, oneList n -> (listed n v <-> forall l, collectEnum n = Some l -> exists x, In x l /\ marshal x = marshal v).
Proof.
  intros n v [H|H]; unfold listed, collectEnum; rewrite H.
  - split.
    + intros [_ H1] l. destruct (sConst n) as [c|]; [|discriminate]. intros E; inversion E; subst. exists c. simpl. auto.
    + intros H1. split; [discriminate|]. intros x E. rewrite E in H1. destruct (H1 _ eq_refl) as (y & [->|[]] & ?). auto.
  - split.
    + intros [H1 _] l. destruct (sEnum n); [auto|discriminate].
    + intros H1. split; [|discriminate]. intros l E. rewrite E in H1. auto.
Qed.
Lemma collect_put : forall l m, collectEnum (putEnum l m) = Some l /\ oneList (putEnum l m).
Proof. intros [|a [|b l]] m; unfold putEnum, collectEnum, oneList; cbn; auto. Qed.
Lemma intersect_In : forall a b v,
  (exists x, In x (intersectEnum a b) /\ marshal x = marshal v) <->
  (exists x, In x a /\ marshal x = marshal v) /\ (exists x, In x b /\ marshal x = marshal v).
Proof.
  intros. unfold intersectEnum. split.
  - intros (x & H & E). apply filter_In in H. destruct H as [H1 H2]. apply mem_enc_In in H2. apply in_map_iff in H2.
    destruct H2 as (y & Ey & Hy). split; [exists x|exists y]; split; auto; congruence.
  - intros [(x & H1 & E1) (y & H2 & E2)]. exists x. split; auto. apply filter_In. split; auto.
    apply mem_enc_In. apply in_map_iff. exists y. split; auto. congruence.
Qed.

(* enum and const of the merged node, as mergeEnum computes them *)
Lemma mergeEnum_ok : forall m n, oneList m -> oneList n ->
  oneList (fst (mergeEnum m n)) /\
  (snd (mergeEnum m n) = true \/ forall v, (listed (fst (mergeEnum m n)) v <-> listed m v /\ listed n v)).
Proof.
  intros m n Hm Hn. unfold mergeEnum.
  destruct (collectEnum m) as [l|] eqn:Em, (collectEnum n) as [r|] eqn:En.
  - destruct (intersectEnum l r) as [|i t] eqn:Ei; cbn [fst snd].
    + split; [right; reflexivity|auto].
    + split; [apply collect_put|]. right. intros v.
      rewrite !listed_collect; auto; [|apply collect_put]. rewrite (proj1 (collect_put _ m)), Em, En.
      rewrite <- Ei. split.
      * intros H. specialize (H _ eq_refl). apply intersect_In in H. destruct H. split; intros ? E; inversion E; subst; auto.
      * intros [H1 H2] ? E. inversion E; subst. apply intersect_In. auto.
  - cbn [fst snd]. split; [apply collect_put|]. right. intros v.
    rewrite !listed_collect; auto; [|apply collect_put]. rewrite (proj1 (collect_put _ m)), Em, En.
    split; [intros H; split; [auto|discriminate]|intros [H _]; auto].
  - cbn [fst snd]. split; [apply collect_put|]. right. intros v.
    rewrite !listed_collect; auto; [|apply collect_put]. rewrite (proj1 (collect_put _ m)), Em, En.
    split; [intros H; split; [discriminate|auto]|intros [_ H]; auto].
  - cbn [fst snd]. split; auto. right. intros v. rewrite !listed_collect; auto. rewrite Em, En.
    split; [intros H; split; discriminate|discriminate].
Qed.

Lemma mergeEnum_type : forall t m n, snd (mergeEnum (set_sType t m) n) = snd (mergeEnum m n).
Proof.
  intros. unfold mergeEnum, collectEnum. cbn [sEnum sConst set_sType].
  destruct (sEnum m), (sConst m), (sEnum n), (sConst n); cbn [snd]; auto;
  destruct (intersectEnum _ _); reflexivity.
Qed.

Lemma listed_same : forall a b v, sEnum a = sEnum b -> sConst a = sConst b -> (listed a v <-> listed b v).
Proof. intros a b v H1 H2. unfold listed. rewrite H1, H2. tauto. Qed.

Lemma into_enum : forall E rec, (forall l, stable E (rec l)) -> forall m n s m' s', mergeInto rec m n s = Ok (m', s') ->
  oneList m -> oneList n ->
  oneList m' /\ forall v, ((listed m' v <-> listed m v /\ listed n v) \/ reportedEnum (pErrs s')).
Proof.
  intros E rec Hs m n s m' s' H Hm Hn.
  fields H. destruct (mergeEnum_ok m n Hm Hn) as [O D].
  split. { subst m'. exact O. }
  intros v. destruct D as [D|D].
  - right. rewrite mergeEnum_type, D in Hs1. destruct H9 as [fl H9].
    assert (K : keeps E s1 s').
    { eapply keeps_trans; [eapply st_mergeMap; eauto|]. eapply keeps_trans; [eapply st_mergeNof; eauto|].
      eapply keeps_trans; [eapply st_mergeMap; eauto|]. eapply keeps_trans; [eapply st_mergePrefix; eauto|].
      eapply keeps_trans; [eapply st_mergeItems; eauto|]. eapply keeps_trans; [eapply st_mergeNof; eauto|].
      eapply keeps_trans; [eapply st_mergeNof; eauto|]. eapply keeps_trans; [eapply st_mergePtr; eauto|].
      eapply st_warnAll; eauto. }
    destruct (kErrs _ _ _ K) as [l Hl]. rewrite Hl, Hs1. cbn [pErrs withErrs].
    exists (pParsing s), (pPath s). apply in_app_iff. right. left. reflexivity.
  - left. rewrite <- D. apply listed_same; subst m'; reflexivity.
Qed.

Definition enumMergeable (n : schemaNode) : Prop := forall c, conjunct c n -> sRef c = None /\ oneList c.

Theorem merge_enum : forall E fuel nodes s m s' v,
  merge E fuel nodes s = Ok (m, s') -> (forall n, In n nodes -> enumMergeable n) ->
  ((forall c, conjunct c m -> listed c v) <-> (forall n, In n nodes -> forall c, conjunct c n -> listed c v)) \/
  reportedEnum (pErrs s').
Proof.
  intros E fuel nodes s m s' v H Hn.
  destruct (merge_conj E (fun c => listed c v) oneList reportedEnum) with (f := fuel) (nodes := nodes) (s := s) (m := m) (s' := s') as [_ D]; auto.
  - intros l l' (d & p & I). exists d, p. apply in_app_iff. auto.
  - unfold listed. cbn. split; discriminate.
  - left. reflexivity.
  - intros rec Hs m0 n0 s0 m1 s1 H1 G1 G2. destruct (into_enum _ _ Hs _ _ _ _ _ H1 G1 G2) as [A B]. split; auto.
  - intros. reflexivity.
  - intros. reflexivity.
Qed.

(* the merged node of nodes with non-empty lists always allows something *)
Definition someListed (n : schemaNode) : Prop := sEnum n <> Some [] .
Lemma loop_some : forall E rec fuel nodes m s m' s', mergeLoop E rec fuel m nodes s = Ok (m', s') ->
  someListed m -> (forall n, In n nodes -> sRef n = None /\ sAllOf n = None /\ someListed n) -> someListed m'.
Proof.
  induction nodes as [|n r IH]; simpl; intros m s m' s' H Hm Hn.
  - apply pret_ok in H. destruct H; subst; auto.
  - apply pbind_ok in H. destruct H as (m1 & s1 & H1 & H).
    destruct (Hn n (or_introl eq_refl)) as (R & A & L).
    unfold mergeOne, resolveNodeRef in H1. rewrite R in H1.
    apply pbind_ok in H1. destruct H1 as ([n1 res] & s2 & H2 & H1). apply pret_ok in H2. destruct H2 as [H2 ->]. inversion H2; subst n1 res.
    rewrite A in H1.
    apply pbind_ok in H1. destruct H1 as (n2 & s3 & H3 & H1). apply pret_ok in H3. destruct H3; subst n2 s3.
    apply pbind_ok in H1. destruct H1 as (m2 & s4 & H4 & H1). apply pret_ok in H1. destruct H1; subst m2 s4.
    eapply IH; eauto. fields H4. unfold someListed in *. rewrite Em. cbn [sEnum]. clear -Hm L.
    assert (P : forall l, l <> [] -> sEnum (putEnum l m) <> Some []).
    { intros [|a [|b l]] Hl; unfold putEnum; cbn; congruence. }
    assert (C : forall k, sEnum k <> Some [] -> collectEnum k <> Some []).
    { intros k Hk. unfold collectEnum. destruct (sEnum k); auto. destruct (sConst k); congruence. }
    unfold mergeEnum. pose proof (C m Hm). pose proof (C n L).
    destruct (collectEnum m), (collectEnum n); cbn [fst]; auto; try (apply P; congruence).
    destruct (intersectEnum _ _) eqn:Ei; cbn [fst]. cbn. discriminate. apply P. discriminate.
Qed.

Theorem merge_enum_reports : forall E fuel nodes s m s',
  merge E fuel nodes s = Ok (m, s') ->
  (forall n, In n nodes -> sRef n = None /\ sAllOf n = None /\ oneList n /\ sEnum n <> Some []) ->
  (exists v, forall n, In n nodes -> listed n v) \/ reportedEnum (pErrs s').
Proof.
  intros E fuel nodes s m s' H Hn.
  assert (Hc : forall n, In n nodes -> forall c, conjunct c n -> c = n).
  { intros n Hi c Hc. inversion Hc; subst; auto. destruct (Hn n Hi) as (_ & A & _). congruence. }
  assert (HA : sAllOf m = None) by (eapply merge_noAllOf; eauto; intros n Hi; destruct (Hn n Hi); tauto).
  assert (HL : exists v, listed m v).
  { assert (L : someListed m /\ oneList m).
    { destruct (merge_conj E (fun c => True) oneList reportedEnum) with (f := fuel) (nodes := nodes) (s := s) (m := m) (s' := s') as [D _]; auto; try reflexivity.
      - intros l l' (d & p & I). exists d, p. apply in_app_iff. auto.
      - left. reflexivity.
      - intros rec Hs m0 n0 s0 m1 s1 H1 G1 G2. destruct (into_enum _ _ Hs _ _ _ _ _ H1 G1 G2) as [A B]. split; auto. left. tauto.
      - intros n Hi c Hcj. rewrite (Hc n Hi c Hcj). destruct (Hn n Hi) as (? & ? & ? & ?). auto.
      - split; [|apply (D m (cj_self m))].
        destruct fuel as [|f]; simpl in H; [discriminate|].
        apply pbind_ok in H. destruct H as (m1 & s1 & H1 & H).
        assert (sAllOf m1 = None) by (eapply loop_noAllOf; eauto; intros n Hi; destruct (Hn n Hi); tauto).
        apply loop_some in H1; [|discriminate|intros n Hi; destruct (Hn n Hi) as (? & ? & ? & ?); unfold someListed; auto].
        destruct f; simpl in H; [discriminate|]. rewrite H0 in H. apply pret_ok in H. destruct H; subst; auto. }
    destruct L as [L O]. unfold someListed in L.
    destruct (sEnum m) as [[|v l]|] eqn:Ee; [congruence| |].
    - exists v. destruct O as [O|O]; [congruence|]. unfold listed. rewrite Ee, O. split; [|discriminate].
      intros l' E1. inversion E1; subst. exists v. simpl. auto.
    - destruct (sConst m) as [v|] eqn:Ec; [exists v|exists JNull]; unfold listed; rewrite Ee, Ec; split; try discriminate.
      intros x E1. inversion E1; auto. }
  destruct HL as [v Hv].
  destruct (merge_enum E fuel nodes s m s' v H) as [D|D]; auto.
  - intros n Hi c Hcj. rewrite (Hc n Hi c Hcj). destruct (Hn n Hi) as (? & ? & ? & ?). auto.
  - left. exists v. intros n Hi. refine (proj1 D _ n Hi n (cj_self n)).
    intros c Hcj. inversion Hcj; subst; auto. congruence.
Qed.

(* ------------------------------------------------------------------ multipleOf *)
Lemma merge_two : forall E fuel n1 n2 s m s', merge E fuel [n1; n2] s = Ok (m, s') ->
  sRef n1 = None -> sAllOf n1 = None -> sRef n2 = None -> sAllOf n2 = None ->
  sMultipleOf m = findHcf (sMultipleOf n2) (findHcf (sMultipleOf n1) None).
Proof.
  intros E fuel n1 n2 s m s' H R1 A1 R2 A2.
  destruct fuel as [|f]; [discriminate|]. cbn [merge] in H.
  apply pbind_ok in H. destruct H as (m1 & s1 & H1 & H).
  assert (HA : sAllOf m1 = None).
  { eapply loop_noAllOf; [exact H1|reflexivity|]. intros n [<-|[<-|[]]]; auto. }
  assert (M : m1 = m). { destruct f; simpl in H; [discriminate|]. rewrite HA in H. apply pret_ok in H. destruct H; auto. }
  subst m1. clear H HA. cbn [mergeLoop] in H1.
  assert (O : forall k n a sa b sb, sRef n = None -> sAllOf n = None -> mergeOne E (merge E f) k a n sa = Ok (b, sb) ->
              sMultipleOf b = findHcf (sMultipleOf n) (sMultipleOf a)).
  { intros k n a sa b sb R A H. unfold mergeOne, resolveNodeRef in H. rewrite R in H.
    apply pbind_ok in H. destruct H as ([n1' res] & s2 & H2 & H). apply pret_ok in H2. destruct H2 as [H2 ->]. inversion H2; subst n1' res.
    rewrite A in H.
    apply pbind_ok in H. destruct H as (n2' & s3 & H3 & H). apply pret_ok in H3. destruct H3; subst n2' s3.
    apply pbind_ok in H. destruct H as (m2 & s4 & H4 & H). apply pret_ok in H. destruct H; subst m2 s4.
    fields H4. rewrite Em. reflexivity. }
  apply pbind_ok in H1. destruct H1 as (b1 & sb1 & H2 & H1).
  apply pbind_ok in H1. destruct H1 as (b2 & sb2 & H3 & H1). apply pret_ok in H1. destruct H1; subst b2 sb2.
  apply O in H2; auto. apply O in H3; auto. rewrite H3, H2. reflexivity.
Qed.

Theorem merge_multipleOf : forall E fuel n1 n2 s m s' a b k,
  merge E fuel [n1; n2] s = Ok (m, s') ->
  sRef n1 = None -> sAllOf n1 = None -> sRef n2 = None -> sAllOf n2 = None ->
  sMultipleOf n1 = Some a -> sMultipleOf n2 = Some b ->
  is_finite a = true -> is_finite b = true -> 0 < B2R a -> 0 < B2R b ->
  (k <= 6)%nat -> (exists u, B2R a * IZR (10 ^ Z.of_nat k) = IZR u) -> (exists u, B2R b * IZR (10 ^ Z.of_nat k) = IZR u) ->
  B2R a * IZR (10 ^ Z.of_nat k) * (B2R b * IZR (10 ^ Z.of_nat k)) <= IZR (2 ^ 53) ->
  (exists r, sMultipleOf m = Some r /\ 0 < B2R r) /\ forall x, okMultipleOf m x -> okMultipleOf n1 x /\ okMultipleOf n2 x.
Proof.
  intros E fuel n1 n2 s m s' a b k H R1 A1 R2 A2 M1 M2 Fa Fb Pa Pb Hk Ha Hb Hp.
  pose proof (merge_two _ _ _ _ _ _ _ H R1 A1 R2 A2) as M. rewrite M1, M2 in M.
  assert (Za : findHcf (Some a) None = Some a).
  { unfold findHcf. replace (feqb a fzero) with false; auto. symmetry. apply feqb_neq; auto. reflexivity.
    change (val fzero) with 0. unfold val. lra. }
  rewrite Za in M.
  destruct (findHcf_multiple b a k Fb Fa Pb Pa Hk Hb Ha) as (r & Hr & Fr & Pr & Mb & Ma).
  { unfold val. rewrite Rmult_comm. exact Hp. }
  rewrite Hr in M. split; [exists r; split; auto|].
  intros x Hx. destruct (Hx r M) as [j ->].
  split; intros q Hq; [rewrite M1 in Hq|rewrite M2 in Hq]; inversion Hq; subst q; unfold val in *.
  - destruct Ma as [i Hi]. rewrite Hi. exists (j * i)%Z. rewrite mult_IZR. ring.
  - destruct Mb as [i Hi]. rewrite Hi. exists (j * i)%Z. rewrite mult_IZR. ring.
Qed.

(* ------------------------------------------------------------------ concrete cases *)
Definition okM {A} (r : res (A * pst)) (f : A -> pst -> bool) : bool := match r with Ok (a, s) => f a s | _ => false end.
Lemma okM_ex : forall A (r : res (A * pst)) f, okM r f = true -> exists a s, r = Ok (a, s) /\ f a s = true.
Proof. intros A [[a s]|w|] f H; try discriminate. eauto. Qed.

Open Scope Z_scope.
Definition demoPE : penv := mkPE 100 false (fun _ _ _ => None) (fun _ _ => None) (fun _ _ => "") (fun _ => false)
  (fun _ => true) (fun _ => true) (fun _ => true) (fun _ => true) (fun _ _ => true) (fun _ => true).
Definition demoP : pst := initP demoPE "file:///w/" "file:///w/doc" emptyNode.

Definition b1 : schemaNode := set_sMinimum (Some (fofZ 3)) (set_sMinLength (Some 2) emptyNode).
Definition b2 : schemaNode :=
  set_sMinimum (Some (fofZ 4)) (set_sAllOf (Some [set_sMaxLength (Some 7) emptyNode; set_sMinLength (Some 5) emptyNode]) emptyNode).
Lemma bounds_case : (forall n, In n [b1; b2] -> mergeable n) /\
  exists m s', merge demoPE 20 [b1; b2] demoP = Ok (m, s') /\ sMinLength m = Some 5 /\ sMaxLength m = Some 7 /\ sAllOf m = None.
Proof.
  assert (L : forall n c, sAllOf n = None -> conjunct c n -> c = n).
  { intros n c H H1. inversion H1; subst; auto. congruence. }
  split.
  - intros n Hn c Hc.
    assert (F3 : is_finite (fofZ 3) = true) by (apply fofZ_exact; lia).
    assert (F4 : is_finite (fofZ 4) = true) by (apply fofZ_exact; lia).
    unfold b1, b2 in Hn. revert F3 F4 Hn. generalize (fofZ 3) (fofZ 4). intros x3 x4 F3 F4 Hn.
    destruct Hn as [<-|[<-|[]]].
    + apply L in Hc; [|reflexivity]. subst c. unfold finiteBounds. cbn. auto 10.
    + inversion Hc; subst.
      * unfold finiteBounds. cbn. auto 10.
      * cbn in H. inversion H; subst l. destruct H0 as [<-|[<-|[]]]; (apply L in H1; [|reflexivity]); subst c; unfold finiteBounds; cbn; auto 10.
  - assert (H : okM (merge demoPE 20 [b1; b2] demoP) (fun m _ =>
        match sMinLength m, sMaxLength m, sAllOf m with Some a, Some b, None => (a =? 5) && (b =? 7) | _, _, _ => false end) = true) by (vm_compute; reflexivity).
    apply okM_ex in H. destruct H as (m & s & H1 & H2). exists m, s. split; auto.
    destruct (sMinLength m), (sMaxLength m), (sAllOf m); try discriminate H2. clear H1. apply andb_prop in H2. destruct H2 as [A B].
    apply Z.eqb_eq in A, B. subst. auto.
Qed.

(* order: two orders of the same nodes allow the same values *)
Theorem merge_bounds_order : forall E fuel fuel' nodes nodes' s t m s' m' t' len items contains props x,
  Permutation nodes nodes' ->
  merge E fuel nodes s = Ok (m, s') -> merge E fuel' nodes' t = Ok (m', t') ->
  (forall n, In n nodes -> mergeable n) ->
  ((forall c, conjunct c m -> boundsHold c len items contains props x) <->
   (forall c, conjunct c m' -> boundsHold c len items contains props x)).
Proof.
  intros. rewrite (merge_bounds _ _ _ _ _ _ len items contains props x H0 H2).
  rewrite (merge_bounds _ _ _ _ _ _ len items contains props x H1).
  - split; intros A n Hn; apply A; [apply Permutation_sym in H|]; eapply Permutation_in; eauto.
  - intros n Hn. apply H2. apply Permutation_sym in H. eapply Permutation_in; eauto.
Qed.

Definition e1 : schemaNode := set_sEnum (Some [JStr "a"; JInt 1; JBool true]) emptyNode.
Definition e2 : schemaNode := set_sEnum (Some [JInt 2; JInt 1; JStr "a"]) emptyNode.
Definition e3 : schemaNode := set_sEnum (Some [JInt 7; JNull]) emptyNode.
Lemma enum_case : (forall n, In n [e1; e2] -> sRef n = None /\ sAllOf n = None /\ oneList n /\ sEnum n <> Some []) /\
  exists m s', merge demoPE 5 [e1; e2] demoP = Ok (m, s') /\ sEnum m = Some [JStr "a"; JInt 1] /\ pErrs s' = [].
Proof.
  split. { intros n [<-|[<-|[]]]; repeat split; try discriminate; right; reflexivity. }
  eexists. eexists. split; [vm_compute; reflexivity|]. split; reflexivity.
Qed.
Lemma enum_case_empty : exists m s', merge demoPE 5 [e1; e3] demoP = Ok (m, s') /\ sEnum m = None /\ sConst m = None /\
  pErrs s' = [(("file:///w/", "#/config_merge_error"), "enum/const")].
Proof. eexists. eexists. split; [vm_compute; reflexivity|]. split; [reflexivity|]. split; reflexivity. Qed.

(* a node with both keywords loses its const *)
Definition ec : schemaNode := set_sEnum (Some [JInt 1; JInt 2]) (set_sConst (Some (JInt 1)) emptyNode).
Lemma enum_const_lost : exists m s', merge demoPE 5 [ec] demoP = Ok (m, s') /\
  (forall c, conjunct c m -> listed c (JInt 2)) /\ ~ listed ec (JInt 2) /\ pErrs s' = [].
Proof.
  eexists. eexists. split; [vm_compute; reflexivity|]. split; [|split; [|reflexivity]].
  - intros c Hc. inversion Hc; subst; [|discriminate]. unfold listed. cbn. split; [|discriminate].
    intros l E1. inversion E1; subst. exists (JInt 2). simpl. auto.
  - unfold listed, ec. cbn. intros [_ H]. specialize (H _ eq_refl). vm_compute in H. discriminate.
Qed.

(* 0.0000002 and 0.0000003 *)
Definition m1 : schemaNode := set_sMultipleOf (Some (fdiv (fofZ 2) (fofZ (10 ^ 7)))) emptyNode.
Definition m2 : schemaNode := set_sMultipleOf (Some (fdiv (fofZ 3) (fofZ (10 ^ 7)))) emptyNode.
Lemma multipleOf_wrong : exists m s', merge demoPE 5 [m1; m2] demoP = Ok (m, s') /\ pErrs s' = [] /\
  exists x, okMultipleOf m x /\ ~ okMultipleOf m1 x.
Proof.
  assert (H : okM (merge demoPE 5 [m1; m2] demoP) (fun m s =>
      match sMultipleOf m, pErrs s with Some r, [] => fltb fzero r && fltb r (fdiv (fofZ 2) (fofZ (10 ^ 7))) && is_finite r | _, _ => false end) = true)
    by (vm_compute; reflexivity).
  assert (F : is_finite (fdiv (fofZ 2) (fofZ (10 ^ 7))) = true) by (vm_compute; reflexivity).
  revert H F. unfold m1. generalize (fdiv (fofZ 2) (fofZ (10 ^ 7))). intros a H F.
  apply okM_ex in H. destruct H as (m & s & H1 & H2). exists m, s. split; auto.
  destruct (sMultipleOf m) as [r|] eqn:Er; [|discriminate H2]. destruct (pErrs s); [|discriminate H2]. split; auto. clear H1.
  apply andb_prop in H2. destruct H2 as [H2 Fr]. apply andb_prop in H2. destruct H2 as [L1 L2].
  apply fltb_lt in L1; [|reflexivity|auto]. apply fltb_lt in L2; auto. unfold val in *. change (B2R fzero) with 0%R in L1.
  exists (B2R r). split.
  - intros q Hq. rewrite Er in Hq. inversion Hq; subst. exists 1. rewrite Rmult_1_l. reflexivity.
  - intros K. destruct (K a eq_refl) as [k Hk].
    assert (Hk0 : (0 < IZR k)%R). { apply Rmult_lt_reg_r with (B2R a); lra. }
    assert (Hk1 : (IZR k < 1)%R). { apply Rmult_lt_reg_r with (B2R a); lra. }
    apply lt_IZR in Hk0, Hk1. lia.
Qed.

Lemma multipleOf_case :
  let n1 := set_sMultipleOf (Some (fof 3 (-2))) emptyNode in let n2 := set_sMultipleOf (Some (fofZ 2)) emptyNode in
  is_finite (fof 3 (-2)) = true /\ B2R (fof 3 (-2)) = (3 / 4)%R /\ is_finite (fofZ 2) = true /\ B2R (fofZ 2) = 2%R /\
  exists m s', merge demoPE 5 [n1; n2] demoP = Ok (m, s').
Proof.
  assert (V : B2R (fof 3 (-2)) = (3 / 4)%R).
  { replace (B2R (fof 3 (-2))) with (SF2R radix2 (B2SF (fof 3 (-2)))) by apply SF2R_B2SF.
    replace (B2SF (fof 3 (-2))) with (SpecFloat.S754_finite false 6755399441055744 (-53)) by (vm_compute; reflexivity).
    unfold SF2R, F2R. simpl. lra. }
  destruct (fofZ_exact 2 ltac:(lia)) as [V2 F2].
  split; [vm_compute; reflexivity|]. split; [exact V|]. split; [exact F2|]. split; [exact V2|].
  assert (H : okM (merge demoPE 5 [set_sMultipleOf (Some (fof 3 (-2))) emptyNode; set_sMultipleOf (Some (fofZ 2)) emptyNode] demoP) (fun _ _ => true) = true) by (vm_compute; reflexivity).
  apply okM_ex in H. destruct H as (m & s & H1 & _). eauto.
Qed.
