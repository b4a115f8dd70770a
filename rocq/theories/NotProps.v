(* Integer bounds, number bounds and types after applying a negated node. *)
From Coq Require Import ZArith Reals List String Bool Lia Lra.
From Flocq Require Import Core BinarySingleNaN.
From Verif Require Import Base Float64 Json Schema Util Number Gen Codec PState PFacts RefPath Merge NotMerge Parse ParseKeep FloatFacts NumberFacts NumberThm SpecNumber NumberProps SpecSchema SpecParse MergeProps.
Import ListNotations.
Open Scope string_scope.
Open Scope Z_scope.

Lemma reports_before : forall E a b c t, keeps E a b -> reports b c t -> reports a c t.
Proof.
  intros E a b c t K (l & d & p & H & I). destruct (kErrs _ _ _ K) as [l0 H0].
  exists (l ++ l0)%list, d, p. rewrite H, H0, app_assoc. split; auto. apply in_app_iff. auto.
Qed.
Lemma reports_after : forall E a b c t, reports a b t -> keeps E b c -> reports a c t.
Proof.
  intros E a b c t (l & d & p & H & I) K. destruct (kErrs _ _ _ K) as [l0 H0].
  exists (l0 ++ l)%list, d, p. rewrite H0, H, app_assoc. split; auto. apply in_app_iff. auto.
Qed.
Lemma reports_sub : forall sub t s u s', addErrSub sub t s = Ok (u, s') -> reports s s' t.
Proof. intros. apply pmod_ok in H. subst. exists [((pParsing s, pPath s ++ sub), t)], (pParsing s), (pPath s ++ sub). split; [destruct s; reflexivity|left; auto]. Qed.

Lemma resolveBoundsInt_ok : forall f a b c d s r s', resolveBoundsInt f a b c d s = Ok (r, s') ->
  exists w, boundsInt a b c d = (fst r, snd r, w) /\ (w = true -> reports s s' f).
Proof.
  intros. unfold resolveBoundsInt in H. destruct (boundsInt a b c d) as [[p q] w]. pinvs. exists w. split; auto.
  intros ->. eapply reports_sub. exact H0.
Qed.

Ltac prs := repeat match goal with H : (_, _) = (_, _) |- _ => apply pair_equal_spec in H; destruct H end; subst.

Lemma notString_ok : forall E m c n x s m' c' s', notApplyString E (m, c) n x s = Ok ((m', c'), s') ->
  exists a b w, boundsInt (sMinLength n) (sMaxLength n) (sMinLength x) (sMaxLength x) = (a, b, w) /\ (w = true -> reports s s' "maxLength") /\
    m' = set_sMinLength a (set_sMaxLength b (set_sPattern (sPattern n) (set_sFormat (sFormat n) m))).
Proof.
  intros. unfold notApplyString in H. pinv H. destruct (resolveBoundsInt_ok _ _ _ _ _ _ _ _ H0) as (w & Hw & R).
  exists (fst a), (snd a), w. split; auto.
  set (m0 := set_sMinLength _ _) in *.
  assert (K : stable E (fun s => Ok ((m0, c) : nstate, s))) by apply st_ret.
  assert (m' = m0 /\ keeps E s0 s').
  { clear -H1. destruct (sPattern x) as [p|].
    - destruct (_ =? _)%string; [|destruct (_ || _)]; pinvs; prs; split; auto; try apply keeps_refl; eapply st_warnField; eauto.
    - destruct (sFormat x) as [q|]; [|pinvs; prs; split; auto; apply keeps_refl].
      destruct (_ =? _)%string; [|destruct (_ || _)]; pinvs; prs; split; auto; try apply keeps_refl; eapply st_warnField; eauto. }
  destruct H as [-> K1]. split; auto. intros Hw'. eapply reports_after; eauto.
Qed.

Definition hasNegatedMultiple (x : schemaNode) : bool :=
  negb (feqb (get_or (sMultipleOf x) fzero) fzero) || typeContains (sType x) "integer".

Lemma notNumber_ok : forall E m c n x s m' c' s', notApplyNumber (m, c) n x s = Ok ((m', c'), s') ->
  keeps E s s' /\ c' = c /\
  exists e mn mx mo, m' = set_sEnum e (set_sMinimum mn (set_sMaximum mx (set_sMultipleOf mo m))) /\
   (hasNegatedMultiple x = false ->
     exists amn amx w, boundsFloat (sMinimum n) (sExclusiveMinimum n) (sMaximum n) (sExclusiveMaximum n)
                (sMinimum x) (sExclusiveMinimum x) (sMaximum x) (sExclusiveMaximum x)
                (if typeContains (sType m) "integer" then fofZ 1 else infinitesimal) = (mn, mx, amn, amx, w) /\
       (w = true -> reports s s' "maximum")).
Proof.
  intros E m c n x s m' c' s' H. split; [eapply st_notApplyNumber; eauto|].
  unfold notApplyNumber in H.
  destruct (boundsFloat _ _ _ _ _ _ _ _ _) as [[[[mn mx] amn] amx] w] eqn:Eb.
  pinv H. rename H1 into H.
  assert (R : w = true -> reports s s0 "maximum") by (intros ->; eapply reports_sub; exact H0).
  set (m0 := set_sMinimum mn (set_sMaximum mx m)) in *.
  assert (X : m0 = set_sEnum (sEnum m) (set_sMinimum mn (set_sMaximum mx (set_sMultipleOf (sMultipleOf m) m)))) by (destruct m; reflexivity).
  assert (G : forall mm s1, m0 = mm -> (keeps E s0 s1) -> c = c' -> m' = mm -> s1 = s' -> 
    c' = c /\ exists e mn0 mx0 mo, m' = set_sEnum e (set_sMinimum mn0 (set_sMaximum mx0 (set_sMultipleOf mo m))) /\
      (hasNegatedMultiple x = false -> exists amn0 amx0 w0, (mn, mx, amn, amx, w) = (mn0, mx0, amn0, amx0, w0) /\ (w0 = true -> reports s s' "maximum"))).
  { intros mm s1 E1 K E2 E3 E4. subst. split; auto. do 4 eexists. split; [exact X|]. intros _. do 3 eexists. split; [reflexivity|].
    intros Hw. eapply reports_after; eauto. }
  clearbody m0.
  assert (N : hasNegatedMultiple x = false -> negb (feqb (if feqb (get_or (sMultipleOf x) fzero) fzero && typeContains (sType x) "integer" then fofZ 1 else get_or (sMultipleOf x) fzero) fzero) = false).
  { unfold hasNegatedMultiple. intros HN. apply orb_false_elim in HN. destruct HN as [N1 N2]. rewrite N2, andb_false_r. exact N1. }
  set (nmo := if feqb (get_or (sMultipleOf x) fzero) fzero && typeContains (sType x) "integer" then fofZ 1 else get_or (sMultipleOf x) fzero) in *.
  set (mo := if feqb (get_or (sMultipleOf n) fzero) fzero && _ && _ then fofZ 1 else get_or (sMultipleOf n) fzero) in *.
  clearbody nmo mo.
  destruct (negb (feqb mo fzero)) eqn:HM; destruct (negb (feqb nmo fzero)) eqn:HN; cbn [negb andb] in H.
  - destruct (feqb mo nmo). { pinvs. prs. eapply G; eauto. eapply st_warnField; eauto. }
    destruct (feqb (fmod mo nmo) fzero). { pinvs. prs. eapply G; eauto. eapply st_warnField; eauto. }
    destruct (fleb nmo infinitesimal). { pinvs. prs. eapply G; eauto. eapply st_warnField; eauto. }
    destruct (_ && _).
    + pinvs. prs. eapply G; eauto. eapply st_warnField; eauto.
    + match type of H with context [map JFloat ?l] => set (vals := map JFloat l) in H; clearbody vals end.
      pinvs. prs. split; auto. exists (Some vals), None, None, None. split; [clear; destruct m; reflexivity|]. intros HH. apply N in HH. discriminate HH.
  - pinvs. prs. split; auto. exists (sEnum m), mn, mx, (sMultipleOf n). split; [destruct m; reflexivity|].
    intros _. do 3 eexists. split; [reflexivity|auto].
  - destruct (fleb nmo infinitesimal). { pinvs. prs. eapply G; eauto. eapply st_warnField; eauto. }
    destruct (_ && _).
    + pinvs. prs. eapply G; eauto. eapply st_warnField; eauto.
    + match type of H with context [map JFloat ?l] => set (vals := map JFloat l) in H; clearbody vals end.
      pinvs. prs. split; auto. exists (Some vals), None, None, None. split; [clear; destruct m; reflexivity|]. intros HH. apply N in HH. discriminate HH.
  - pinvs. prs. eapply G; eauto. apply keeps_refl.
Qed.

Lemma notEnum_ok : forall E m c n x s m' c' s', notApplyEnum (m, c) n x s = Ok ((m', c'), s') ->
  keeps E s s' /\ exists e, m' = set_sEnum e m.
Proof.
  intros E m c n x s m' c' s' H. split; [eapply st_notApplyEnum; eauto|].
  assert (I : m = set_sEnum (sEnum m) m) by (destruct m; reflexivity).
  unfold notApplyEnum in H.
  repeat match type of H with (match ?b with _ => _ end) _ = _ => destruct b end; pinvs; prs; eauto.
Qed.

Lemma notConst_ok : forall E m c n x s m' c' s', notApplyConst (m, c) n x s = Ok ((m', c'), s') ->
  keeps E s s' /\ m' = set_sConst (sConst n) m.
Proof.
  intros E m c n x s m' c' s' H. split; [eapply st_notApplyConst; eauto|].
  unfold notApplyConst in H. destruct (sConst x); [destruct (_ || _)|]; pinvs; prs; auto.
Qed.

Section Rec.
Variable E : penv.
Variable rec : schemaNode -> schemaNode -> P nstate.
Hypothesis Hrec : forall n x, stable E (rec n x).

Lemma notArray_ok : forall m c n x s m' c' s', notApplyArray rec (m, c) n x s = Ok ((m', c'), s') ->
  exists i1 i2 wi k1 k2 k1' wk its un pre une con,
    boundsInt (sMinItems n) (sMaxItems n) (sMinItems x) (sMaxItems x) = (i1, i2, wi) /\ (wi = true -> reports s s' "maxItems") /\
    boundsInt (sMinContains n) (sMaxContains n) (sMinContains x) (sMaxContains x) = (k1, k2, wk) /\ (wk = true -> reports s s' "maxContains") /\
    (k1' = k1 \/ reports s s' "not/minContains") /\
    m' = set_sMinItems i1 (set_sMaxItems i2 (set_sMinContains k1' (set_sMaxContains k2
        (set_sItems its (set_sUniqueItems un (set_sPrefixItems pre (set_sUnevaluatedItems une (set_sContains con m)))))))).
Proof.
  intros m c n x s m' c' s' H. unfold notApplyArray in H.
  apply pbind_ok in H. destruct H as (a & s0 & Ha & H). apply pbind_ok in H. destruct H as (a0 & s2 & Hb & H1).
  set (clash := match fst a0, snd a with Some _, Some _ => _ | _, _ => _ end) in H1.
  apply pbind_ok in H1. destruct H1 as (u & s3 & Hw & H).
  assert (K : keeps E s3 s').
  { revert H. match goal with |- ?f _ = _ -> _ => assert (St : stable E f) end.
    { repeat (apply st_bind; intros). apply st_notItems; auto. apply st_warnIf. apply st_resolveBool. apply st_notPrefix; auto. apply st_notNof; auto. apply st_notSubPtr; auto. apply st_ret. }
    intros. eapply St; eauto. }
  destruct (resolveBoundsInt_ok _ _ _ _ _ _ _ _ Ha) as (wi & Hwi & Ri).
  destruct (resolveBoundsInt_ok _ _ _ _ _ _ _ _ Hb) as (wk & Hwk & Rk).
  assert (Ka : keeps E s s0) by (eapply st_resolveBoundsInt; eauto).
  assert (Kb : keeps E s0 s2) by (eapply st_resolveBoundsInt; eauto).
  assert (Kc : keeps E s2 s3) by (eapply st_warnIf; eauto).
  pinvs. prs.
  exists (fst a), (snd a), wi, (fst a0), (snd a0), (if clash then snd a else fst a0), wk. do 5 eexists.
  split; [exact Hwi|]. split. { intros W. eapply reports_after; [apply Ri; auto|]. eapply keeps_trans; [|exact K]. eapply keeps_trans; eauto. }
  split; [exact Hwk|]. split. { intros W. eapply reports_before; [exact Ka|]. eapply reports_after; [apply Rk; auto|]. eapply keeps_trans; eauto. }
  split; [|reflexivity].
  destruct clash; auto. right. eapply reports_before; [exact Ka|]. eapply reports_before; [exact Kb|]. eapply reports_after; [|exact K].
  eapply reports_sub. exact Hw.
Qed.

Lemma notObject_ok : forall m c n x s m' c' s', notApplyObject rec (m, c) n x s = Ok ((m', c'), s') ->
  exists a b w pp ap rq pr,
    boundsInt (sMinProperties n) (sMaxProperties n) (sMinProperties x) (sMaxProperties x) = (a, b, w) /\ (w = true -> reports s s' "maxProperties") /\
    m' = set_sProperties pr (set_sMinProperties a (set_sMaxProperties b (set_sPatternProperties pp (set_sAdditionalProperties ap (set_sRequired rq m))))).
Proof.
  intros m c n x s m' c' s' H. unfold notApplyObject in H. apply pbind_ok in H. destruct H as (a & s0 & H0 & H1).
  assert (K : keeps E s0 s').
  { revert H1. match goal with |- ?f _ = _ -> _ => assert (St : stable E f) end.
    { repeat (apply st_bind; intros). apply st_notPropsLoop; auto. apply st_warnIf. apply st_notNof; auto. apply st_ret. }
    intros. eapply St; eauto. }
  destruct (resolveBoundsInt_ok _ _ _ _ _ _ _ _ H0) as (w & Hw & R).
  pinvs. prs.
  match goal with |- context [match ?p with [] => set_sMinProperties _ _ | _ :: _ => _ end] =>
    exists (fst a), (snd a), w, (sPatternProperties n), a2, (sRequired n), (match p with [] => sProperties m | _ => Some p end); destruct p end;
  (split; [exact Hw|]; split; [intros W; eapply reports_after; eauto|]); destruct m; reflexivity.
Qed.

Lemma notStep_ok : forall n x s m c s', notStep E rec n x s = Ok ((m, c), s') ->
  (resolveType n x = None /\ m = emptyNode /\ reports s s' "type") \/
  exists t, resolveType n x = Some t /\ sType m = Some t /\
    (exists w, boundsInt (sMinLength n) (sMaxLength n) (sMinLength x) (sMaxLength x) = (sMinLength m, sMaxLength m, w) /\ (w = true -> reports s s' "maxLength")) /\
    (exists w, boundsInt (sMinItems n) (sMaxItems n) (sMinItems x) (sMaxItems x) = (sMinItems m, sMaxItems m, w) /\ (w = true -> reports s s' "maxItems")) /\
    (exists w k, boundsInt (sMinContains n) (sMaxContains n) (sMinContains x) (sMaxContains x) = (k, sMaxContains m, w) /\
       (w = true -> reports s s' "maxContains") /\ (sMinContains m = k \/ reports s s' "not/minContains")) /\
    (exists w, boundsInt (sMinProperties n) (sMaxProperties n) (sMinProperties x) (sMaxProperties x) = (sMinProperties m, sMaxProperties m, w) /\ (w = true -> reports s s' "maxProperties")) /\
    (hasNegatedMultiple x = false ->
     exists amn amx w, boundsFloat (sMinimum n) (sExclusiveMinimum n) (sMaximum n) (sExclusiveMaximum n)
                (sMinimum x) (sExclusiveMinimum x) (sMaximum x) (sExclusiveMaximum x)
                (if typeContains (Some t) "integer" then fofZ 1 else infinitesimal) = (sMinimum m, sMaximum m, amn, amx, w) /\
       (w = true -> reports s s' "maximum")) /\ sExclusiveMinimum m = None /\ sExclusiveMaximum m = None.
Proof.
  intros n x s m c s' H. unfold notStep in H. apply pbind_ok in H. destruct H as (a & s0 & H0 & H1). unfold notApplyType in H0.
  destruct (resolveType n x) as [t|].
  2: { left. pinvs. prs. split; auto. split; auto. eapply reports_sub. exact H. }
  right. apply pret_ok in H0. destruct H0 as [-> ->]. exists t. split; auto.
  apply pbind_ok in H1. destruct H1 as ([m1 c1] & s1 & H1 & H).
  apply pbind_ok in H. destruct H as ([m2 c2] & s2 & H2 & H).
  apply pbind_ok in H. destruct H as ([m3 c3] & s3 & H3 & H).
  apply pbind_ok in H. destruct H as ([m4 c4] & s4 & H4 & H).
  apply pbind_ok in H. destruct H as ([m5 c5] & s5 & H5 & H).
  apply pbind_ok in H. destruct H as ([m6 c6] & s6 & H6 & H).
  apply pbind_ok in H. destruct H as (u & s7 & H7 & H). apply pret_ok in H. destruct H as [H ->]. cbn [fst snd] in H. prs.
  assert (K1 : keeps E s s1) by (eapply st_notApplyString; eauto).
  assert (K5 : keeps E s4 s5) by (eapply st_notApplyArray; eauto).
  assert (K6 : keeps E s5 s6) by (eapply st_notApplyObject; eauto).
  assert (K7 : keeps E s6 s7) by (eapply st_warnUnsupported; eauto).
  destruct (notString_ok _ _ _ _ _ _ _ _ _ H1) as (l1 & l2 & wl & B1 & R1 & ->).
  destruct (notNumber_ok E _ _ _ _ _ _ _ _ H2) as (K2 & _ & e & mn & mx & mo & -> & N).
  destruct (notEnum_ok E _ _ _ _ _ _ _ _ H3) as (K3 & e' & ->).
  destruct (notConst_ok E _ _ _ _ _ _ _ _ H4) as (K4 & ->).
  destruct (notArray_ok _ _ _ _ _ _ _ _ H5) as (i1 & i2 & wi & k1 & k2 & k1' & wk & its & un & pre & une & con & B2 & R2 & B3 & R3 & R3' & ->).
  destruct (notObject_ok _ _ _ _ _ _ _ _ H6) as (p1 & p2 & wp & pp & ap & rq & pr & B4 & R4 & ->).
  assert (L : forall a b tag, (a = s \/ a = s1 \/ a = s4 \/ a = s5) -> (b = s1 \/ b = s2 \/ b = s5 \/ b = s6) -> reports a b tag -> reports s s7 tag).
  { assert (T0 : keeps E s s4) by exact (keeps_trans _ _ _ _ K1 (keeps_trans _ _ _ _ K2 (keeps_trans _ _ _ _ K3 K4))).
    assert (T1 : keeps E s s5) by (eapply keeps_trans; eauto).
    assert (T2 : keeps E s6 s7) by auto.
    assert (T3 : keeps E s5 s7) by (eapply keeps_trans; eauto).
    assert (T4 : keeps E s2 s7) by exact (keeps_trans _ _ _ _ K3 (keeps_trans _ _ _ _ K4 (keeps_trans _ _ _ _ K5 T3))).
    assert (T5 : keeps E s1 s7) by (eapply keeps_trans; eauto).
    assert (T6 : keeps E s s) by apply keeps_refl.
    intros a b tag A B R. eapply reports_after with (b := b) (E := E); [eapply reports_before with (b := a) (E := E); [|exact R]|];
      [destruct A as [->|[->|[->| ->]]]|destruct B as [->|[->|[->| ->]]]]; assumption. }
  unfold keepFields. cbn.
  split; [reflexivity|].
  split; [exists wl; split; [exact B1|intros W; eapply L; [| |apply R1; auto]; auto]|].
  split; [exists wi; split; [exact B2|intros W; eapply L; [| |apply R2; auto]; auto]|].
  split; [exists wk, k1; split; [exact B3|split; [intros W; eapply L; [| |apply R3; auto]; auto|]]|].
  { destruct R3' as [->|R]; auto. right. eapply L; [| |exact R]; auto. }
  split; [exists wp; split; [exact B4|intros W; eapply L; [| |apply R4; auto]; auto]|].
  split; [|split; reflexivity].
  intros HN. destruct (N HN) as (amn & amx & w & B & R). exists amn, amx, w. split; [exact B|].
  intros W. eapply L; [| |apply R; auto]; auto.
Qed.
End Rec.

Definition notMerge_ok E f := notStep_ok E (notMerge E f) (st_notMerge E f).

(* ------------------------------------------------------------------ integer bounds *)
Lemma boundsInt_ok : forall mn mx nmn nmx a b z,
  boundsInt mn mx nmn nmx = (a, b, false) -> 0 <= z ->
  (forall v, mn = Some v \/ mx = Some v \/ nmn = Some v -> v < 2 ^ 31 - 12) ->
  okRange a b z -> okRange mn mx z /\ (nmn <> None \/ nmx <> None -> ~ okRange nmn nmx z).
Proof.
  intros mn mx nmn nmx a b z H Hz Hb Ho.
  assert (B1 : forall v, mn = Some v -> v < 2 ^ 31 - 12) by auto.
  assert (B2 : forall v, mx = Some v -> v < 2 ^ 31 - 12) by auto.
  assert (B3 : forall v, nmn = Some v -> v < 2 ^ 31 - 12) by auto.
  clear Hb. unfold boundsInt, minToNil, maxToNil, nbMinInt, nbMaxInt in H.
  assert (SS : forall (P : Z -> Prop) v, (forall w, Some v = Some w -> P w) -> P v) by auto.
  destruct mn as [m1|], mx as [m2|], nmn as [n1|], nmx as [n2|]; cbn [get_or] in H;
    try specialize (B1 _ eq_refl); try specialize (B2 _ eq_refl); try specialize (B3 _ eq_refl);
    repeat match type of H with
    | (if ?c then _ else _) = _ => destruct c eqn:?
    | (if ?c then _ else _, _, _) = _ => destruct c eqn:?
    | (_, if ?c then _ else _, _) = _ => destruct c eqn:?
    end; inversion H; subst; clear H;
    destruct Ho as [O1 O2]; try specialize (O1 _ eq_refl); try specialize (O2 _ eq_refl);
    (split; [split; intros ? Q; inversion Q; subst; lia|]);
    intros NN [Q1 Q2]; try specialize (Q1 _ eq_refl); try specialize (Q2 _ eq_refl); try (destruct NN; congruence); lia.
Qed.

Theorem notMerge_int_bounds : forall E fuel n x s m c s' len items contains props,
  notMerge E fuel n x s = Ok ((m, c), s') ->
  0 <= len -> 0 <= items -> 0 <= contains -> 0 <= props ->
  (forall v, In (Some v) [sMinLength n; sMaxLength n; sMinLength x; sMaxLength x; sMinItems n; sMaxItems n; sMinItems x; sMaxItems x;
                          sMinContains n; sMaxContains n; sMinContains x; sMaxContains x;
                          sMinProperties n; sMaxProperties n; sMinProperties x; sMaxProperties x] -> v < 2 ^ 31 - 12) ->
  reports s s' "type" \/
  ((okRange (sMinLength m) (sMaxLength m) len -> okRange (sMinLength n) (sMaxLength n) len /\
     (sMinLength x <> None \/ sMaxLength x <> None -> ~ okRange (sMinLength x) (sMaxLength x) len)) \/ reports s s' "maxLength") /\
  ((okRange (sMinItems m) (sMaxItems m) items -> okRange (sMinItems n) (sMaxItems n) items /\
     (sMinItems x <> None \/ sMaxItems x <> None -> ~ okRange (sMinItems x) (sMaxItems x) items)) \/ reports s s' "maxItems") /\
  ((okRange (sMinContains m) (sMaxContains m) contains -> okRange (sMinContains n) (sMaxContains n) contains /\
     (sMinContains x <> None \/ sMaxContains x <> None -> ~ okRange (sMinContains x) (sMaxContains x) contains)) \/
   reports s s' "maxContains" \/ reports s s' "not/minContains") /\
  ((okRange (sMinProperties m) (sMaxProperties m) props -> okRange (sMinProperties n) (sMaxProperties n) props /\
     (sMinProperties x <> None \/ sMaxProperties x <> None -> ~ okRange (sMinProperties x) (sMaxProperties x) props)) \/ reports s s' "maxProperties").
Proof.
  intros E fuel n x s m c s' len items contains props H Z1 Z2 Z3 Z4 B. destruct fuel as [|f]; [discriminate|]. cbn [notMerge] in H.
  destruct (notMerge_ok E f _ _ _ _ _ _ H) as [(_ & _ & R)|(t & _ & _ & (w1 & L1 & R1) & (w2 & L2 & R2) & (w3 & k & L3 & R3 & R3') & (w4 & L4 & R4) & _)]; auto.
  right. cbn [In] in B.
  split; [|split; [|split]].
  - destruct w1; auto. left. intros O. eapply boundsInt_ok; eauto. intros v [?|[?|?]]; apply B; tauto.
  - destruct w2; auto. left. intros O. eapply boundsInt_ok; eauto. intros v [?|[?|?]]; apply B; tauto.
  - destruct w3; auto. destruct R3' as [<-|R]; auto. left. intros O. eapply boundsInt_ok; eauto. intros v [?|[?|?]]; apply B; tauto.
  - destruct w4; auto. left. intros O. eapply boundsInt_ok; eauto. intros v [?|[?|?]]; apply B; tauto.
Qed.

(* ------------------------------------------------------------------ number bounds *)
Open Scope R_scope.
Definition isOff (o : f64) : Prop := o = fofZ 1 \/ o = infinitesimal.
Lemma off_fin : forall o, isOff o -> fin o /\ 0 < val o <= 1.
Proof.
  intros o [->| ->].
  - destruct (fofZ_exact 1 ltac:(lia)) as [V F]. rewrite V. split; auto. simpl. lra.
  - assert (F : fin infinitesimal) by (vm_compute; reflexivity).
    assert (A : fltb fzero infinitesimal = true) by (vm_compute; reflexivity).
    assert (B : fleb infinitesimal (fofZ 1) = true) by (vm_compute; reflexivity).
    destruct (fofZ_exact 1 ltac:(lia)) as [V F1].
    apply (proj1 (fltb_lt fzero _ eq_refl F)) in A. apply (proj1 (fleb_le _ _ F F1)) in B. rewrite V in B. change (val fzero) with 0 in A. split; [exact F|]. split; [exact A|exact B].
Qed.

Lemma toNil_keep : forall o v, isOff o -> fin v -> Rabs (val v) <= IZR (2 ^ 52) -> minToNilF v o = Some v /\ maxToNilF v o = Some v.
Proof.
  intros o v Ho Fv Hv.
  assert (L : fin (fadd lowerBound (fmul o (fofZ 10))) /\ fleb (fadd lowerBound (fmul o (fofZ 10))) (fofZ (- 2 ^ 53)) = true)
    by (destruct Ho as [->| ->]; split; vm_compute; reflexivity).
  assert (U : fin (fsub upperBound (fmul o (fofZ 10))) /\ fleb (fofZ (2 ^ 53)) (fsub upperBound (fmul o (fofZ 10))) = true)
    by (destruct Ho as [->| ->]; split; vm_compute; reflexivity).
  destruct L as [L1 L2], U as [U1 U2].
  destruct (fofZ_exact (- 2 ^ 53) ltac:(lia)) as [V1 F1]. destruct (fofZ_exact (2 ^ 53) ltac:(lia)) as [V2 F2].
  apply (proj1 (fleb_le _ _ L1 F1)) in L2. apply (proj1 (fleb_le _ _ F2 U1)) in U2. rewrite V1 in L2. rewrite V2 in U2. rewrite opp_IZR in L2.
  assert (IZR (2 ^ 52) < IZR (2 ^ 53)) by (apply IZR_lt; reflexivity).
  apply Rabs_le_inv in Hv. unfold minToNilF, maxToNilF. split.
  - destruct (fleb v _) eqn:E; [|reflexivity]. apply (proj1 (fleb_le _ _ Fv L1)) in E. lra.
  - destruct (fleb _ v) eqn:E; [|reflexivity]. apply (proj1 (fleb_le _ _ U1 Fv)) in E. lra.
Qed.

Definition within (B : R) (o : option f64) : Prop := forall a, o = Some a -> fin a /\ Rabs (val a) <= B.

Lemma pickShape : forall (A B : Type) (x1 x2 y1 y2 : option B) (p q r res : A) (r1 r2 : B -> A),
  match y1, y2 with
  | None, None => p
  | _, _ =>
      match x1, x2 with
      | None, None => match y1, y2 with Some a, _ => r1 a | None, Some b => r2 b | None, None => q end
      | _, _ => r
      end
  end = res ->
  (y1 = None /\ y2 = None /\ p = res) \/
  (x1 = None /\ x2 = None /\ ((exists a, y1 = Some a /\ r1 a = res) \/ exists b, y2 = Some b /\ r2 b = res)) \/ r = res.
Proof.
  intros. destruct y1 as [a|], y2 as [b|], x1 as [c|], x2 as [d|]; try (right; right; exact H); try (left; split; [reflexivity|split; [reflexivity|exact H]]);
  right; left; (split; [reflexivity|split; [reflexivity|]]); first [left; exists a; split; [reflexivity|exact H]|right; exists b; split; [reflexivity|exact H]].
Qed.

(* the bounds chosen: inside the old range, and away from the negated one by more than nothing *)
Ltac tup := repeat match goal with H : (_, _) = (_, _) |- _ => apply pair_equal_spec in H; destruct H end.

Lemma boundsCore : forall x1 x2 y1 y2 o mn mx am ax z (out : Prop),
  isOff o -> within (IZR (2 ^ 51)) x1 -> within (IZR (2 ^ 51)) x2 -> within (IZR (2 ^ 51)) y1 -> within (IZR (2 ^ 51)) y2 ->
  (forall b, y2 = Some b -> val (fadd b o) <= z -> out) ->
  (forall a, y1 = Some a -> z <= val (fsub a o) -> out) ->
  (forall a b, y2 = Some b -> x1 = Some a -> val b < val a <= z -> out) ->
  (forall a b, y1 = Some b -> x2 = Some a -> z <= val a < val b -> out) ->
  (forall b, y2 = Some b -> val lowerBound <= val b) ->
  match y1, y2 with
  | None, None => (x1, x2, None, None, false)
  | _, _ =>
      match x1, x2 with
      | None, None =>
          match y1, y2 with
          | Some a, _ => (None, Some (fsub a o), None, None, false)
          | None, Some b => (Some (fadd b o), None, None, None, false)
          | None, None => (None, None, None, None, false)
          end
      | _, _ =>
          let x1v := get_or x1 lowerBound in
          let x2v := get_or x2 upperBound in
          let y1v := get_or y1 lowerBound in
          let y2v := get_or y2 upperBound in
          if fltb y2v x1v || fltb x2v y1v then (minToNilF x1v o, maxToNilF x2v o, None, None, false)
          else if fleb y1v x1v && fleb x2v y2v then (minToNilF x1v o, maxToNilF x2v o, None, None, true)
          else if fleb y1v x1v && fltb y2v x2v then (minToNilF (fadd y2v o) o, maxToNilF x2v o, None, None, false)
          else if fltb x1v y1v && fleb x2v y2v then (minToNilF x1v o, maxToNilF (fsub y1v o) o, None, None, false)
          else (minToNilF x1v o, maxToNilF (fsub y1v o) o,
                minToNilF (fadd y2v o) o, maxToNilF x2v o, false)
      end
  end = (mn, mx, am, ax, false) ->
  (forall a, mn = Some a -> val a <= z) -> (forall a, mx = Some a -> z <= val a) ->
  (forall a, x1 = Some a -> val a <= z) /\ (forall a, x2 = Some a -> z <= val a) /\ (y1 <> None \/ y2 <> None -> out).
Proof.
  intros x1 x2 y1 y2 o mn mx am ax z out Ho W1 W2 W3 W4 O1 O2 O3 O4 O5 H Z1 Z2.
  destruct (off_fin o Ho) as [Fo Po].
  assert (Hb : IZR (2 ^ 51) < IZR (2 ^ 52) < IZR (2 ^ 53)) by (split; apply IZR_lt; reflexivity).
  assert (Hb1 : IZR (2 ^ 51) + 1 <= IZR (2 ^ 52)) by (rewrite <- plus_IZR; apply IZR_le; vm_compute; discriminate).
  assert (U : IZR (2 ^ 53) < val upperBound) by apply upper_big.
  destruct lower_val as [Fl Vl]. destruct upper_fin as [Fu _].
  assert (KA : forall b, fin b -> Rabs (val b) <= IZR (2 ^ 51) -> fin (fadd b o) /\ Rabs (val (fadd b o)) <= IZR (2 ^ 52)).
  { intros b Fb B. destruct (fadd_mag b o (2 ^ 52) Fb Fo) as (A & A' & _). lia. rewrite (Rabs_pos_eq (val o)) by lra. lra. auto. }
  assert (KS : forall b, fin b -> Rabs (val b) <= IZR (2 ^ 51) -> fin (fsub b o) /\ Rabs (val (fsub b o)) <= IZR (2 ^ 52) /\ val (fsub b o) <= val b).
  { intros b Fb B. destruct (fsub_mag b o (2 ^ 52) Fb Fo) as (A & A' & A''). lia. rewrite (Rabs_pos_eq (val o)) by lra. lra.
    split; auto. split; auto. rewrite A''. apply rnd_le_gen. apply generic_format_B2R. lra. }
  assert (KG : forall b, fin b -> Rabs (val b) <= IZR (2 ^ 51) -> val b <= val (fadd b o)).
  { intros b Fb B. destruct (fadd_mag b o (2 ^ 52) Fb Fo) as (A & A' & A''). lia. rewrite (Rabs_pos_eq (val o)) by lra. lra.
    rewrite A''. apply rnd_ge. apply generic_format_B2R. lra. }
  assert (N1 : forall v, fin v -> Rabs (val v) <= IZR (2 ^ 52) -> minToNilF v o = Some v) by (intros; apply toNil_keep; auto).
  assert (N2 : forall v, fin v -> Rabs (val v) <= IZR (2 ^ 52) -> maxToNilF v o = Some v) by (intros; apply toNil_keep; auto).
  (* facts about each bound *)
  assert (X1 : fin (get_or x1 lowerBound) /\ val lowerBound <= val (get_or x1 lowerBound) < val upperBound).
  { destruct x1 as [a|]; cbn. destruct (W1 a eq_refl) as [F B]. apply Rabs_le_inv in B. split; auto. lra. split; auto. lra. }
  assert (X2 : fin (get_or x2 upperBound) /\ val lowerBound < val (get_or x2 upperBound) <= val upperBound).
  { destruct x2 as [a|]; cbn. destruct (W2 a eq_refl) as [F B]. apply Rabs_le_inv in B. split; auto. lra. split; auto. lra. }
  assert (Y1 : fin (get_or y1 lowerBound) /\ val lowerBound <= val (get_or y1 lowerBound) < val upperBound).
  { destruct y1 as [a|]; cbn. destruct (W3 a eq_refl) as [F B]. apply Rabs_le_inv in B. split; auto. lra. split; auto. lra. }
  assert (Y2 : fin (get_or y2 upperBound) /\ val lowerBound < val (get_or y2 upperBound) <= val upperBound).
  { destruct y2 as [a|]; cbn. destruct (W4 a eq_refl) as [F B]. apply Rabs_le_inv in B. split; auto. lra. split; auto. lra. }
  assert (IN1 : forall a, (forall q, minToNilF (get_or x1 lowerBound) o = Some q -> val q <= z) -> x1 = Some a -> val a <= z).
  { intros a Q ->. cbn in Q. destruct (W1 a eq_refl) as [F B]. apply Q. apply N1; auto. lra. }
  assert (IN2 : forall a, (forall q, maxToNilF (get_or x2 upperBound) o = Some q -> z <= val q) -> x2 = Some a -> z <= val a).
  { intros a Q ->. cbn in Q. destruct (W2 a eq_refl) as [F B]. apply Q. apply N2; auto. lra. }
  apply pickShape in H. destruct H as [(-> & -> & H)|[(-> & -> & H)|HH]].
  - tup; subst. split; [exact Z1|]. split; [exact Z2|]. intros [Q|Q]; elim Q; reflexivity.
  - split; [discriminate|]. split; [discriminate|]. intros _.
    destruct H as [(a & -> & H)|(b & -> & H)]; tup; subst; [eapply O2; [reflexivity|apply Z2; reflexivity]|eapply O1; [reflexivity|apply Z1; reflexivity]].
  - cbv zeta in HH.
    set (x1v := get_or x1 lowerBound) in *. set (x2v := get_or x2 upperBound) in *.
    set (y1v := get_or y1 lowerBound) in *. set (y2v := get_or y2 upperBound) in *.
    destruct X1 as [FX1 X1], X2 as [FX2 X2], Y1 as [FY1 Y1], Y2 as [FY2 Y2].
    destruct (fltb y2v x1v || fltb x2v y1v) eqn:C1.
    { tup; subst mn mx. split; [eauto|]. split; [eauto|]. intros _.
      apply orb_prop in C1. destruct C1 as [C1|C1]; apply fltb_lt in C1; auto.
      - destruct y2 as [b|]; [|unfold y2v in C1; cbn in C1; lra]. destruct x1 as [a|] eqn:Ex1; [|unfold x1v in C1; cbn in C1; specialize (O5 _ eq_refl); unfold y2v in C1; cbn in C1; lra].
        eapply (O3 a b); [reflexivity|reflexivity|]. split; [exact C1|]. eapply IN1; [exact Z1|reflexivity].
      - destruct y1 as [b|]; [|unfold y1v in C1; cbn in C1; lra]. destruct x2 as [a|] eqn:Ex2; [|unfold x2v in C1; cbn in C1; unfold y1v in *; cbn in *; lra].
        eapply (O4 a b); [reflexivity|reflexivity|]. split; [|exact C1]. eapply IN2; [exact Z2|reflexivity]. }
    apply orb_false_elim in C1. destruct C1 as [C1a C1b].
    destruct (fleb y1v x1v && fleb x2v y2v) eqn:C2; [tup; congruence|].
    destruct (fleb y1v x1v && fltb y2v x2v) eqn:C3.
    { tup; subst mn mx. apply andb_prop in C3. destruct C3 as [C3 C4]. apply fleb_le in C3; auto. apply fltb_lt in C4; auto.
      destruct y2 as [b|]; [|unfold y2v in C4; cbn in C4; lra]. unfold y2v in *; cbn in *. destruct (W4 b eq_refl) as [Fb Bb].
      destruct (KA b Fb Bb) as [F1 B1]. rewrite (N1 _ F1 B1) in Z1. specialize (Z1 _ eq_refl).
      split; [|split; [eauto|intros _; eapply O1; eauto]].
      intros a Ea. assert (val a <= val b). { subst x1. unfold x1v in C1a. cbn in C1a. apply fltb_ge in C1a; auto. }
      pose proof (KG b Fb Bb). lra. }
    assert (LX : val x1v < val y1v).
    { destruct (Rlt_or_le (val x1v) (val y1v)) as [|L]; auto. exfalso.
      apply fleb_le in L; auto. rewrite L in C2, C3. cbn in C2, C3. 
      destruct (Rle_or_lt (val x2v) (val y2v)) as [K|K]; [apply fleb_le in K|apply fltb_lt in K]; auto; congruence. }
    destruct y1 as [a|]; [|unfold y1v in LX; cbn in LX; lra]. unfold y1v in *; cbn in *. destruct (W3 a eq_refl) as [Fa Ba].
    destruct (KS a Fa Ba) as (F1 & B1 & G1).
    assert (E1 : mn = minToNilF x1v o /\ mx = Some (fsub a o)).
    { rewrite <- (N2 _ F1 B1). destruct (fltb x1v a && fleb x2v y2v); tup; auto. }
    destruct E1 as [-> ->]. specialize (Z2 _ eq_refl).
    split; [eauto|]. split; [|intros _; eapply O2; eauto].
    intros a' Ea. subst x2. unfold x2v in C1b. cbn in C1b. apply fltb_ge in C1b; auto. lra.
Qed.

Lemma maxPtr_spec : forall a b, (forall v, a = Some v -> fin v) -> (forall v, b = Some v -> fin v) ->
  (maxFloatPtr a b = None -> a = None /\ b = None) /\
  (forall v, maxFloatPtr a b = Some v -> a = Some v \/ b = Some v) /\
  (forall z, (forall v, maxFloatPtr a b = Some v -> val v <= z) -> (forall v, a = Some v -> val v <= z) /\ (forall v, b = Some v -> val v <= z)).
Proof.
  intros a b Fa Fb. destruct a as [x|], b as [y|]; cbn; try (split; [|split]; [try discriminate; auto|auto|]; intros z Hz; split; intros v E; try discriminate E; auto; fail).
  specialize (Fa _ eq_refl). specialize (Fb _ eq_refl). destruct (fltb x y) eqn:C.
  - apply (proj1 (fltb_lt _ _ Fa Fb)) in C. split; [discriminate|]. split; [auto|]. intros z Hz. specialize (Hz _ eq_refl). split; intros v E; inversion E; subst; lra.
  - apply (proj1 (fltb_ge _ _ Fa Fb)) in C. split; [discriminate|]. split; [auto|]. intros z Hz. specialize (Hz _ eq_refl). split; intros v E; inversion E; subst; lra.
Qed.
Lemma minPtr_spec : forall a b, (forall v, a = Some v -> fin v) -> (forall v, b = Some v -> fin v) ->
  (minFloatPtr a b = None -> a = None /\ b = None) /\
  (forall v, minFloatPtr a b = Some v -> a = Some v \/ b = Some v) /\
  (forall z, (forall v, minFloatPtr a b = Some v -> z <= val v) -> (forall v, a = Some v -> z <= val v) /\ (forall v, b = Some v -> z <= val v)).
Proof.
  intros a b Fa Fb. destruct a as [x|], b as [y|]; cbn; try (split; [|split]; [try discriminate; auto|auto|]; intros z Hz; split; intros v E; try discriminate E; auto; fail).
  specialize (Fa _ eq_refl). specialize (Fb _ eq_refl). destruct (fltb y x) eqn:C.
  - apply (proj1 (fltb_lt _ _ Fb Fa)) in C. split; [discriminate|]. split; [auto|]. intros z Hz. specialize (Hz _ eq_refl). split; intros v E; inversion E; subst; lra.
  - apply (proj1 (fltb_ge _ _ Fb Fa)) in C. split; [discriminate|]. split; [auto|]. intros z Hz. specialize (Hz _ eq_refl). split; intros v E; inversion E; subst; lra.
Qed.

Lemma maxPtr_in : forall a b q, maxFloatPtr a b = Some q -> a = Some q \/ b = Some q.
Proof. intros [x|] [y|] q H; cbn in H; try discriminate; auto. destruct (fltb x y); auto. Qed.
Lemma minPtr_in : forall a b q, minFloatPtr a b = Some q -> a = Some q \/ b = Some q.
Proof. intros [x|] [y|] q H; cbn in H; try discriminate; auto. destruct (fltb y x); auto. Qed.

(* what is needed of the four bounds of the node and of the negated node *)
Definition stepUp (o : f64) (b : option f64) : Prop := forall v, b = Some v -> fin (fadd v o) /\ Rabs (val (fadd v o)) <= IZR (2 ^ 51) /\ val v < val (fadd v o).
Definition stepDn (o : f64) (b : option f64) : Prop := forall v, b = Some v -> fin (fadd v (fneg o)) /\ Rabs (val (fadd v (fneg o))) <= IZR (2 ^ 51) /\ val (fadd v (fneg o)) < val v.

Lemma addPtr_within : forall o b, stepUp o b -> within (IZR (2 ^ 51)) (addIfNotNil b o).
Proof. intros o [v|] H a E; inversion E; subst. destruct (H v eq_refl) as (A & B & _). auto. Qed.
Lemma subPtr_within : forall o b, stepDn o b -> within (IZR (2 ^ 51)) (addIfNotNil b (fneg o)).
Proof. intros o [v|] H a E; inversion E; subst. destruct (H v eq_refl) as (A & B & _). auto. Qed.

Lemma boundsFloat_ok : forall o mn xmn mx xmx nmn nxmn nmx nxmx a b am ax z (out : Prop),
  isOff o ->
  within (IZR (2 ^ 51)) mn -> within (IZR (2 ^ 51)) mx -> within (IZR (2 ^ 51)) nmn -> within (IZR (2 ^ 51)) nmx ->
  stepUp o xmn -> stepDn o xmx -> stepUp o nxmn -> stepDn o nxmx ->
  let x1 := maxFloatPtr mn (addIfNotNil xmn o) in let x2 := minFloatPtr mx (addIfNotNil xmx (fneg o)) in
  let y1 := maxFloatPtr nmn (addIfNotNil nxmn o) in let y2 := minFloatPtr nmx (addIfNotNil nxmx (fneg o)) in
  (forall b, y2 = Some b -> val (fadd b o) <= z -> out) ->
  (forall a, y1 = Some a -> z <= val (fsub a o) -> out) ->
  (forall a b, y2 = Some b -> x1 = Some a -> val b < val a <= z -> out) ->
  (forall a b, y1 = Some b -> x2 = Some a -> z <= val a < val b -> out) ->
  boundsFloat mn xmn mx xmx nmn nxmn nmx nxmx o = (a, b, am, ax, false) ->
  (forall v, a = Some v -> val v <= z) -> (forall v, b = Some v -> z <= val v) ->
  (forall v, mn = Some v -> val v <= z) /\ (forall v, mx = Some v -> z <= val v) /\
  (forall v, xmn = Some v -> val v < z) /\ (forall v, xmx = Some v -> z < val v) /\
  ((nmn <> None \/ nxmn <> None \/ nmx <> None \/ nxmx <> None) -> out).
Proof.
  intros o mn xmn mx xmx nmn nxmn nmx nxmx a b am ax z out Ho W1 W2 W3 W4 U1 U2 U3 U4 x1 x2 y1 y2 O1 O2 O3 O4 H Z1 Z2.
  assert (FW : forall q, within (IZR (2 ^ 51)) q -> forall v, q = Some v -> fin v) by (intros q Q v Ev; apply (Q v Ev)).
  destruct (maxPtr_spec mn (addIfNotNil xmn o) (FW _ W1) (FW _ (addPtr_within _ _ U1))) as (X1a & X1b & X1c).
  destruct (minPtr_spec mx (addIfNotNil xmx (fneg o)) (FW _ W2) (FW _ (subPtr_within _ _ U2))) as (X2a & X2b & X2c).
  destruct (maxPtr_spec nmn (addIfNotNil nxmn o) (FW _ W3) (FW _ (addPtr_within _ _ U3))) as (Y1a & Y1b & Y1c).
  destruct (minPtr_spec nmx (addIfNotNil nxmx (fneg o)) (FW _ W4) (FW _ (subPtr_within _ _ U4))) as (Y2a & Y2b & Y2c).
  assert (V1 : within (IZR (2 ^ 51)) x1) by (intros v Ev; destruct (X1b v Ev) as [Q|Q]; [apply (W1 v Q)|apply (addPtr_within _ _ U1 v Q)]).
  assert (V2 : within (IZR (2 ^ 51)) x2) by (intros v Ev; destruct (X2b v Ev) as [Q|Q]; [apply (W2 v Q)|apply (subPtr_within _ _ U2 v Q)]).
  assert (V3 : within (IZR (2 ^ 51)) y1) by (intros v Ev; destruct (Y1b v Ev) as [Q|Q]; [apply (W3 v Q)|apply (addPtr_within _ _ U3 v Q)]).
  assert (V4 : within (IZR (2 ^ 51)) y2) by (intros v Ev; destruct (Y2b v Ev) as [Q|Q]; [apply (W4 v Q)|apply (subPtr_within _ _ U4 v Q)]).
  assert (O5 : forall q, y2 = Some q -> val lowerBound <= val q).
  { intros q Q. destruct (V4 q Q) as [_ B]. apply Rabs_le_inv in B. destruct lower_val as [_ ->]. pose proof upper_big.
    assert (IZR (2 ^ 51) < IZR (2 ^ 53)) by (apply IZR_lt; reflexivity). lra. }
  unfold boundsFloat in H. cbv zeta in H. fold x1 x2 y1 y2 in H.
  destruct (boundsCore x1 x2 y1 y2 o a b am ax z out Ho V1 V2 V3 V4 O1 O2 O3 O4 O5 H Z1 Z2) as (R1 & R2 & R3).
  destruct (X1c z R1) as [A1 A2]. destruct (X2c z R2) as [B1 B2].
  split; [exact A1|]. split; [exact B1|]. split; [|split].
  - intros v ->. destruct (U1 v eq_refl) as (_ & _ & L). specialize (A2 _ eq_refl). lra.
  - intros v ->. destruct (U2 v eq_refl) as (_ & _ & L). specialize (B2 _ eq_refl). lra.
  - intros N. apply R3. destruct y1 eqn:E1; [left; discriminate|]. destruct y2 eqn:E2; [right; discriminate|]. exfalso.
    destruct (Y1a E1) as [Q1 Q2], (Y2a E2) as [Q3 Q4]. destruct nxmn; [discriminate|]. destruct nxmx; [discriminate|].
    destruct N as [N|[N|[N|N]]]; apply N; auto.
Qed.

(* integer-valued bounds, offset 1 *)
Definition intB (o : option f64) : Prop := forall a, o = Some a -> fin a /\ exists k, val a = IZR k /\ (Z.abs k <= 2 ^ 50)%Z.
Lemma int_within : forall o, intB o -> within (IZR (2 ^ 51)) o.
Proof. intros o H a E. destruct (H a E) as (F & k & V & K). split; auto. rewrite V, <- abs_IZR. apply IZR_le. lia. Qed.
Lemma fadd1 : forall a k, fin a -> val a = IZR k -> (Z.abs k <= 2 ^ 51)%Z -> fin (fadd a (fofZ 1)) /\ val (fadd a (fofZ 1)) = IZR (k + 1).
Proof.
  intros a k F V K. destruct (fofZ_exact 1 ltac:(lia)) as [V1 F1].
  assert (E : rnd (val a + val (fofZ 1)) = IZR (k + 1)). { rewrite V, V1, <- plus_IZR. apply rnd_id. apply F64_IZR. lia. }
  destruct (fadd_correct a (fofZ 1) F F1) as [A B]; [|rewrite A, E; auto].
  rewrite E, <- abs_IZR. apply Rle_lt_trans with (IZR (2 ^ 53)). apply IZR_le. lia. change (IZR (2 ^ 53)) with (bpow radix2 53). apply bpow_lt. lia.
Qed.
Lemma fsub1 : forall a k, fin a -> val a = IZR k -> (Z.abs k <= 2 ^ 51)%Z ->
  (fin (fsub a (fofZ 1)) /\ val (fsub a (fofZ 1)) = IZR (k - 1)) /\ fin (fadd a (fneg (fofZ 1))) /\ val (fadd a (fneg (fofZ 1))) = IZR (k - 1).
Proof.
  intros a k F V K. destruct (fofZ_exact 1 ltac:(lia)) as [V1 F1].
  assert (G : fin (fneg (fofZ 1))) by (unfold fin, fneg; rewrite is_finite_Bopp; exact F1).
  assert (W : val (fneg (fofZ 1)) = -1). { unfold val, fneg. rewrite B2R_Bopp. unfold val in V1. rewrite V1. reflexivity. }
  assert (L : Rabs (IZR (k - 1)) < bpow radix2 1024).
  { rewrite <- abs_IZR. apply Rle_lt_trans with (IZR (2 ^ 53)). apply IZR_le. lia. change (IZR (2 ^ 53)) with (bpow radix2 53). apply bpow_lt. lia. }
  assert (I : rnd (IZR (k - 1)) = IZR (k - 1)) by (apply rnd_id, F64_IZR; lia).
  split.
  - assert (E : rnd (val a - val (fofZ 1)) = IZR (k - 1)) by (rewrite V, V1, <- minus_IZR; exact I).
    destruct (fsub_correct a (fofZ 1) F F1) as [A B]; [rewrite E; exact L|rewrite A, E; auto].
  - assert (E : rnd (val a + val (fneg (fofZ 1))) = IZR (k - 1)) by (rewrite V, W, <- plus_IZR; exact I).
    destruct (fadd_correct a (fneg (fofZ 1)) F G) as [A B]; [rewrite E; exact L|rewrite A, E; auto].
Qed.
Lemma int_up : forall b, intB b -> stepUp (fofZ 1) b.
Proof.
  intros b H v E. destruct (H v E) as (F & k & V & K). destruct (fadd1 v k F V ltac:(lia)) as [A B]. split; auto. rewrite B, V. split.
  - rewrite <- abs_IZR. apply IZR_le. lia.
  - apply IZR_lt. lia.
Qed.
Lemma int_dn : forall b, intB b -> stepDn (fofZ 1) b.
Proof.
  intros b H v E. destruct (H v E) as (F & k & V & K). destruct (fsub1 v k F V ltac:(lia)) as [_ [A B]]. split; auto. rewrite B, V. split.
  - rewrite <- abs_IZR. apply IZR_le. lia.
  - apply IZR_lt. lia.
Qed.

Lemma boundsFloat_int : forall n x a b am ax z,
  intB (sMinimum n) -> intB (sExclusiveMinimum n) -> intB (sMaximum n) -> intB (sExclusiveMaximum n) ->
  intB (sMinimum x) -> intB (sExclusiveMinimum x) -> intB (sMaximum x) -> intB (sExclusiveMaximum x) ->
  boundsFloat (sMinimum n) (sExclusiveMinimum n) (sMaximum n) (sExclusiveMaximum n)
    (sMinimum x) (sExclusiveMinimum x) (sMaximum x) (sExclusiveMaximum x) (fofZ 1) = (a, b, am, ax, false) ->
  (forall v, a = Some v -> val v <= z) -> (forall v, b = Some v -> z <= val v) ->
  okBounds n z /\ ((sMinimum x <> None \/ sExclusiveMinimum x <> None \/ sMaximum x <> None \/ sExclusiveMaximum x <> None) -> ~ okBounds x z).
Proof.
  intros n x a b am ax z I1 I2 I3 I4 I5 I6 I7 I8 H Z1 Z2.
  assert (Y2 : forall b, minFloatPtr (sMaximum x) (addIfNotNil (sExclusiveMaximum x) (fneg (fofZ 1))) = Some b ->
     exists k, fin b /\ val b = IZR k /\ (Z.abs k <= 2 ^ 51)%Z /\ (IZR (k + 1) <= z -> ~ okBounds x z)).
  { intros q Q. assert (D : sMaximum x = Some q \/ addIfNotNil (sExclusiveMaximum x) (fneg (fofZ 1)) = Some q).
    { apply minPtr_in; exact Q. }
    destruct D as [D|D].
    - destruct (I7 q D) as (F & k & V & K). exists k. split; auto. split; auto. split; [lia|]. intros L (_ & O & _). specialize (O q D).
      unfold val in V. rewrite V in O. rewrite plus_IZR in L. simpl in L. lra.
    - destruct (sExclusiveMaximum x) as [e|] eqn:Ee; [|discriminate D]. cbn in D. destruct (I8 e eq_refl) as (F & k & V & K).
      destruct (fsub1 e k F V ltac:(lia)) as [_ [A B]]. injection D. intros <-. exists (k - 1)%Z. split; auto. split; auto. split; [lia|].
      intros L (_ & _ & _ & O). specialize (O e Ee). unfold val in V. rewrite V in O. replace (k - 1 + 1)%Z with k in L by lia. lra. }
  assert (Y1 : forall b, maxFloatPtr (sMinimum x) (addIfNotNil (sExclusiveMinimum x) (fofZ 1)) = Some b ->
     exists k, fin b /\ val b = IZR k /\ (Z.abs k <= 2 ^ 51)%Z /\ (z <= IZR (k - 1) -> ~ okBounds x z)).
  { intros q Q. assert (D : sMinimum x = Some q \/ addIfNotNil (sExclusiveMinimum x) (fofZ 1) = Some q).
    { apply maxPtr_in; exact Q. }
    destruct D as [D|D].
    - destruct (I5 q D) as (F & k & V & K). exists k. split; auto. split; auto. split; [lia|]. intros L (O & _). specialize (O q D).
      unfold val in V. rewrite V in O. rewrite minus_IZR in L. lra.
    - destruct (sExclusiveMinimum x) as [e|] eqn:Ee; [|discriminate D]. cbn in D. destruct (I6 e eq_refl) as (F & k & V & K).
      destruct (fadd1 e k F V ltac:(lia)) as [A B]. injection D. intros <-. exists (k + 1)%Z. split; auto. split; auto. split; [lia|].
      intros L (_ & _ & O & _). specialize (O e Ee). unfold val in V. rewrite V in O. replace (k + 1 - 1)%Z with k in L by lia. lra. }
  assert (X1 : forall b, maxFloatPtr (sMinimum n) (addIfNotNil (sExclusiveMinimum n) (fofZ 1)) = Some b -> exists k, val b = IZR k).
  { intros q Q. assert (D : sMinimum n = Some q \/ addIfNotNil (sExclusiveMinimum n) (fofZ 1) = Some q).
    { apply maxPtr_in; exact Q. }
    destruct D as [D|D]. destruct (I1 q D) as (F & k & V & K); eauto.
    destruct (sExclusiveMinimum n) as [e|]; [|discriminate D]. destruct (I2 e eq_refl) as (F & k & V & K).
    destruct (fadd1 e k F V ltac:(lia)) as [A B]. injection D. intros <-. eauto. }
  assert (X2 : forall b, minFloatPtr (sMaximum n) (addIfNotNil (sExclusiveMaximum n) (fneg (fofZ 1))) = Some b -> exists k, val b = IZR k).
  { intros q Q. assert (D : sMaximum n = Some q \/ addIfNotNil (sExclusiveMaximum n) (fneg (fofZ 1)) = Some q).
    { apply minPtr_in; exact Q. }
    destruct D as [D|D]. destruct (I3 q D) as (F & k & V & K); eauto.
    destruct (sExclusiveMaximum n) as [e|]; [|discriminate D]. destruct (I4 e eq_refl) as (F & k & V & K).
    destruct (fsub1 e k F V ltac:(lia)) as [_ [A B]]. injection D. intros <-. eauto. }
  destruct (boundsFloat_ok (fofZ 1) _ _ _ _ _ _ _ _ a b am ax z (~ okBounds x z) (or_introl eq_refl)
    (int_within _ I1) (int_within _ I3) (int_within _ I5) (int_within _ I7) (int_up _ I2) (int_dn _ I4) (int_up _ I6) (int_dn _ I8)) as (R1 & R2 & R3 & R4 & R5); auto.
  - intros q Q L. destruct (Y2 q Q) as (k & F & V & K & O). apply O. destruct (fadd1 q k F V ltac:(lia)) as [_ A]. rewrite <- A. exact L.
  - intros q Q L. destruct (Y1 q Q) as (k & F & V & K & O). apply O. destruct (fsub1 q k F V ltac:(lia)) as [[_ A] _]. rewrite <- A. exact L.
  - intros q r Q Q' [L1 L2]. destruct (Y2 r Q) as (k & F & V & K & O). destruct (X1 q Q') as [k' V']. apply O. rewrite V, V' in L1.
    apply lt_IZR in L1. rewrite V' in L2. eapply Rle_trans; [|exact L2]. apply IZR_le. lia.
  - intros q r Q Q' [L1 L2]. destruct (Y1 r Q) as (k & F & V & K & O). destruct (X2 q Q') as [k' V']. apply O. rewrite V, V' in L2.
    apply lt_IZR in L2. rewrite V' in L1. eapply Rle_trans; [exact L1|]. apply IZR_le. lia.
  - split; auto. split; [exact R1|split; [exact R2|split; [exact R3|exact R4]]].
Qed.

Lemma num_up : forall b, within 127 b -> stepUp infinitesimal b.
Proof.
  intros b H v E. destruct (H v E) as (F & B). destruct (off_fin infinitesimal (or_intror eq_refl)) as [Fo Po].
  destruct (fadd_mag v infinitesimal 128 F Fo) as (A1 & A2 & A3). lia. rewrite (Rabs_pos_eq (val infinitesimal)) by lra. replace (IZR 128) with (127 + 1)%R by (simpl; lra). lra.
  split; auto. split. eapply Rle_trans; [exact A2|]. apply IZR_le. vm_compute. discriminate.
  rewrite A3. apply excl_num; auto. unfold val in B. lra.
Qed.
Lemma num_dn : forall b, within 127 b -> stepDn infinitesimal b.
Proof.
  intros b H v E. destruct (H v E) as (F & B). destruct (off_fin infinitesimal (or_intror eq_refl)) as [Fo Po].
  assert (G : fin (fneg infinitesimal)) by (unfold fin, fneg; rewrite is_finite_Bopp; exact Fo).
  assert (W : val (fneg infinitesimal) = - val infinitesimal) by (unfold val, fneg; apply B2R_Bopp).
  destruct (fadd_mag v (fneg infinitesimal) 128 F G) as (A1 & A2 & A3). lia. rewrite W, Rabs_Ropp, (Rabs_pos_eq (val infinitesimal)) by lra. replace (IZR 128) with (127 + 1)%R by (simpl; lra). lra.
  split; auto. split. eapply Rle_trans; [exact A2|]. apply IZR_le. vm_compute. discriminate.
  rewrite A3, W. apply excl_num; auto. unfold val in B. lra.
Qed.
Lemma num_sub : forall v, fin v -> Rabs (val v) <= 127 -> val (fsub v infinitesimal) < val v.
Proof.
  intros v F B. destruct (off_fin infinitesimal (or_intror eq_refl)) as [Fo Po].
  destruct (fsub_mag v infinitesimal 128 F Fo) as (A1 & A2 & A3). lia. rewrite (Rabs_pos_eq (val infinitesimal)) by lra. replace (IZR 128) with (127 + 1)%R by (simpl; lra). lra.
  rewrite A3. apply excl_num; auto. unfold val in B. lra.
Qed.
Lemma within_more : forall o, within 127 o -> within (IZR (2 ^ 51)) o.
Proof. intros o H a E. destruct (H a E) as [F B]. split; auto. eapply Rle_trans; [exact B|]. apply IZR_le. vm_compute. discriminate. Qed.

Lemma boundsFloat_num : forall n x a b am ax z,
  within 127 (sMinimum n) -> within 127 (sExclusiveMinimum n) -> within 127 (sMaximum n) -> within 127 (sExclusiveMaximum n) ->
  within 127 (sMinimum x) -> within 127 (sMaximum x) -> sExclusiveMinimum x = None -> sExclusiveMaximum x = None ->
  boundsFloat (sMinimum n) (sExclusiveMinimum n) (sMaximum n) (sExclusiveMaximum n)
    (sMinimum x) (sExclusiveMinimum x) (sMaximum x) (sExclusiveMaximum x) infinitesimal = (a, b, am, ax, false) ->
  (forall v, a = Some v -> val v <= z) -> (forall v, b = Some v -> z <= val v) ->
  okBounds n z /\ ((sMinimum x <> None \/ sExclusiveMinimum x <> None \/ sMaximum x <> None \/ sExclusiveMaximum x <> None) -> ~ okBounds x z).
Proof.
  intros n x a b am ax z I1 I2 I3 I4 I5 I6 I7 I8 H Z1 Z2.
  assert (WN : within 127 None) by (intros v E; discriminate).
  assert (Y2 : forall b, minFloatPtr (sMaximum x) (addIfNotNil (sExclusiveMaximum x) (fneg infinitesimal)) = Some b -> sMaximum x = Some b).
  { intros q Q. apply minPtr_in in Q. destruct Q as [Q|Q]; auto. rewrite I8 in Q. discriminate Q. }
  assert (Y1 : forall b, maxFloatPtr (sMinimum x) (addIfNotNil (sExclusiveMinimum x) infinitesimal) = Some b -> sMinimum x = Some b).
  { intros q Q. apply maxPtr_in in Q. destruct Q as [Q|Q]; auto. rewrite I7 in Q. discriminate Q. }
  assert (U7 : within 127 (sExclusiveMinimum x)) by (rewrite I7; exact WN).
  assert (U8 : within 127 (sExclusiveMaximum x)) by (rewrite I8; exact WN).
  destruct (boundsFloat_ok infinitesimal _ _ _ _ _ _ _ _ a b am ax z (~ okBounds x z) (or_intror eq_refl)
    (within_more _ I1) (within_more _ I3) (within_more _ I5) (within_more _ I6) (num_up _ I2) (num_dn _ I4) (num_up _ U7) (num_dn _ U8)) as (R1 & R2 & R3 & R4 & R5); auto.
  - intros q Q L (_ & O & _). apply Y2 in Q. specialize (O q Q). destruct (num_up _ I6 q Q) as (_ & _ & K). unfold val in *. lra.
  - intros q Q L (O & _). apply Y1 in Q. specialize (O q Q). destruct (I5 q Q) as [F B]. pose proof (num_sub q F B). unfold val in *. lra.
  - intros q r Q Q' L (_ & O & _). apply Y2 in Q. specialize (O r Q). unfold val in *. lra.
  - intros q r Q Q' L (O & _). apply Y1 in Q. specialize (O r Q). unfold val in *. lra.
  - split; auto. split; [exact R1|split; [exact R2|split; [exact R3|exact R4]]].
Qed.

(* ------------------------------------------------------------------ the theorems *)
Lemma contains_names : forall t name, properType (Some t) -> name <> "" -> (typeContains (Some t) name = true <-> In name (typeNames (Some t))).
Proof.
  intros [sg mu] name P Hn. cbn in *. destruct mu as [l|]; cbn.
  - destruct P as (-> & _ & _). replace (String.eqb "" name) with false by (symmetry; apply String.eqb_neq; auto). cbn. apply mem_string_In.
  - rewrite orb_false_r. rewrite String.eqb_eq. split; [auto|intros [?|[]]; auto].
Qed.

Lemma nodeTypes_names : forall n, properType (sType n) -> nodeTypes n false = typeNames (sType n).
Proof.
  intros n P. unfold nodeTypes. destruct (sType n) as [[sg mu]|]; [|reflexivity]. cbn in *. destruct mu as [l|]; cbn.
  - destruct P as (-> & N & _). cbn. destruct l; congruence.
  - apply String.eqb_neq in P. rewrite P. reflexivity.
Qed.

Lemma fromSlice_names : forall l, l <> [] -> ~ In "" l -> typeNames (Some (typeFromSlice l)) = l /\ properType (Some (typeFromSlice l)).
Proof.
  intros [|a [|b r]] N E; [congruence| |]; cbn; split; auto.
  - intros ->. apply E. left. auto.
Qed.

Lemma resolved_proper : forall n x t, properType (sType n) -> resolveType n x = Some t ->
  properType (Some t) /\ (forall u, In u (typeNames (Some t)) -> In u (typeNames (sType n))).
Proof.
  intros n x t P H. unfold resolveType in H. rewrite (nodeTypes_names n P) in H.
  destruct (filter _ _) as [|a r] eqn:E; [discriminate|]. assert (Et : t = typeFromSlice (a :: r)) by congruence. subst t.
  assert (S : forall u, In u (a :: r) -> In u (typeNames (sType n))) by (intros u Hu; rewrite <- E in Hu; apply filter_In in Hu; tauto).
  destruct (fromSlice_names (a :: r)) as [A B]; [discriminate| |].
  - intros I. apply S in I. destruct (sType n) as [[sg mu]|]; cbn in *; [|repeat destruct I as [I|I]; try discriminate I; auto].
    destruct mu; [tauto|]. destruct I as [I|[]]. auto.
  - split; auto. rewrite A. exact S.
Qed.

(* no multipleOf and no type "integer" in the negated node *)
Definition plainNumber (x : schemaNode) : Prop :=
  sMultipleOf x = None /\ match sType x with None => True | Some _ => properType (sType x) /\ ~ In "integer" (typeNames (sType x)) end.
Lemma plain_noMultiple : forall x, plainNumber x -> hasNegatedMultiple x = false.
Proof.
  intros x [A B]. unfold hasNegatedMultiple. rewrite A. cbn [get_or]. replace (feqb fzero fzero) with true by (vm_compute; reflexivity). cbn [negb orb].
  destruct (sType x) as [t|]; [|reflexivity]. destruct B as [B C]. destruct (typeContains (Some t) "integer") eqn:D; auto.
  apply contains_names in D; auto; [|discriminate]. elim C. exact D.
Qed.

Definition boundList (n : schemaNode) : list (option f64) := [sMinimum n; sMaximum n; sExclusiveMinimum n; sExclusiveMaximum n].

Theorem notMerge_number_int : forall E fuel n x s m c s' z,
  notMerge E fuel n x s = Ok ((m, c), s') -> properType (sType n) -> plainNumber x ->
  In "integer" (typeNames (sType m)) ->
  (forall a, In (Some a) (boundList n ++ boundList x) -> is_finite a = true /\ exists k, B2R a = IZR k /\ (Z.abs k <= 2 ^ 50)%Z) ->
  reports s s' "type" \/ reports s s' "maximum" \/
  (okBounds m z -> okBounds n z /\ ((exists a, In (Some a) (boundList x)) -> ~ okBounds x z)).
Proof.
  intros E fuel n x s m c s' z H P PN HI HB. destruct fuel as [|f]; [discriminate|]. cbn [notMerge] in H.
  destruct (notMerge_ok E f _ _ _ _ _ _ H) as [(_ & _ & R)|(t & Ht & Em & _ & _ & _ & _ & HF & _)]; auto.
  right. destruct (HF (plain_noMultiple x PN)) as (am & ax & w & B & R). destruct w; auto. right.
  rewrite Em in HI. destruct (resolved_proper n x t P Ht) as [PT _]. 
  assert (TC : typeContains (Some t) "integer" = true) by (apply contains_names; auto; discriminate). rewrite TC in B.
  unfold boundList in HB. cbn [app In] in HB.
  intros (O1 & O2 & _ & _).
  destruct (boundsFloat_int n x (sMinimum m) (sMaximum m) am ax z) with (10 := O1) (11 := O2) (9 := B) as [A1 A2]; try (intros a Ea; apply HB; tauto).
  split; auto. intros (a & Ia). apply A2. unfold boundList in Ia. cbn [In] in Ia. clear -Ia.
  destruct Ia as [Ia|[Ia|[Ia|[Ia|[]]]]]; [left|right; right; left|right; left|right; right; right]; rewrite Ia; discriminate.
Qed.

Theorem notMerge_number_real : forall E fuel n x s m c s' z,
  notMerge E fuel n x s = Ok ((m, c), s') -> properType (sType n) -> plainNumber x ->
  ~ In "integer" (typeNames (sType m)) -> sExclusiveMinimum x = None -> sExclusiveMaximum x = None ->
  (forall a, In (Some a) (boundList n ++ boundList x) -> is_finite a = true /\ Rabs (B2R a) <= 127) ->
  reports s s' "type" \/ reports s s' "maximum" \/
  (okBounds m z -> okBounds n z /\ ((exists a, In (Some a) (boundList x)) -> ~ okBounds x z)).
Proof.
  intros E fuel n x s m c s' z H P PN HI X1 X2 HB. destruct fuel as [|f]; [discriminate|]. cbn [notMerge] in H.
  destruct (notMerge_ok E f _ _ _ _ _ _ H) as [(_ & _ & R)|(t & Ht & Em & _ & _ & _ & _ & HF & _)]; auto.
  right. destruct (HF (plain_noMultiple x PN)) as (am & ax & w & B & R). destruct w; auto. right.
  rewrite Em in HI. destruct (resolved_proper n x t P Ht) as [PT _]. 
  assert (TC : typeContains (Some t) "integer" = false).
  { destruct (typeContains (Some t) "integer") eqn:D; auto. elim HI. apply contains_names in D; auto. discriminate. }
  rewrite TC in B.
  unfold boundList in HB. cbn [app In] in HB.
  intros (O1 & O2 & _ & _).
  destruct (boundsFloat_num n x (sMinimum m) (sMaximum m) am ax z) with (10 := O1) (11 := O2) (9 := B) as [A1 A2]; auto; try (intros a Ea; apply HB; tauto).
  split; auto. intros (a & Ia). apply A2. unfold boundList in Ia. cbn [In] in Ia. clear -Ia.
  destruct Ia as [Ia|[Ia|[Ia|[Ia|[]]]]]; [left|right; right; left|right; left|right; right; right]; rewrite Ia; discriminate.
Qed.

(* ------------------------------------------------------------------ types *)
Definition negatedType (t : multipleType) (u : string) : Prop :=
  In u (typeNames (Some t)) \/ (u = "integer" /\ In "number" (typeNames (Some t))).

Lemma resolveType_names : forall n t u, properType (sType n) -> properType (Some t) ->
  In u (filter (fun t0 => negb (mem_string t0 (expandNotTypes (nodeTypes (set_sType (Some t) emptyNode) true)) && negb (hasValueConstraints (set_sType (Some t) emptyNode)))) (nodeTypes n false))
  <-> In u (typeNames (sType n)) /\ ~ negatedType t u.
Proof.
  intros n t u P Q. rewrite filter_In, (nodeTypes_names n P). change (hasValueConstraints (set_sType (Some t) emptyNode)) with false. cbn [negb]. rewrite andb_true_r.
  assert (T : nodeTypes (set_sType (Some t) emptyNode) true = typeNames (Some t)).
  { unfold nodeTypes. cbn [sType set_sType]. destruct t as [sg mu]. cbn in *. destruct mu as [l|]; cbn.
    - destruct Q as (-> & N & _). cbn. destruct l; congruence.
    - apply String.eqb_neq in Q. rewrite Q. reflexivity. }
  rewrite T. clear T. unfold negatedType. set (ex := typeNames (Some t)). clearbody ex.
  assert (M : mem_string u (expandNotTypes ex) = true <-> In u ex \/ (u = "integer" /\ In "number" ex)).
  { rewrite mem_string_In. unfold expandNotTypes. destruct (mem_string "number" ex) eqn:D1; cbn [andb].
    - apply mem_string_In in D1. destruct (mem_string "integer" ex) eqn:D2; cbn [negb].
      + apply mem_string_In in D2. split; [auto|intros [?|[-> _]]; auto].
      + rewrite in_app_iff. cbn. split; [intros [?|[?|[]]]; auto|intros [?|[-> _]]; auto].
    - apply mem_string_not_In in D1. split; [auto|intros [?|[_ ?]]; [auto|contradiction]]. }
  destruct (mem_string u (expandNotTypes ex)) eqn:D; cbn; split.
  - intros [_ K]. discriminate K.
  - intros [_ K]. elim K. apply M. reflexivity.
  - intros [A _]. split; auto. intros K. apply M in K. discriminate K.
  - intros [A _]. auto.
Qed.

Theorem notMerge_type : forall E fuel n t s m c s',
  notMerge E fuel n (set_sType (Some t) emptyNode) s = Ok ((m, c), s') -> properType (sType n) -> properType (Some t) ->
  (reports s s' "type" /\ forall u, In u (typeNames (sType n)) -> negatedType t u) \/
  (properType (sType m) /\ (exists u, In u (typeNames (sType m))) /\
   forall u, In u (typeNames (sType m)) <-> In u (typeNames (sType n)) /\ ~ negatedType t u).
Proof.
  intros E fuel n t s m c s' H P Q. destruct fuel as [|f]; [discriminate|]. cbn [notMerge] in H.
  pose proof (resolveType_names n t) as RN.
  destruct (notMerge_ok E f _ _ _ _ _ _ H) as [(HN & _ & R)|(t' & Ht & Em & _)].
  - left. split; auto. intros u Hu. unfold resolveType in HN. destruct (filter _ _) as [|a r] eqn:EF; [|discriminate HN].
    destruct (in_dec string_dec u (typeNames (Some t))) as [I|I]; [left; auto|].
    destruct (in_dec string_dec "number" (typeNames (Some t))) as [J|J].
    + destruct (string_dec u "integer") as [->|K]; [right; auto|]. exfalso. 
      assert (In u []) as []. apply RN; auto. split; auto. intros [L|[L _]]; auto.
    + exfalso. assert (In u []) as []. apply RN; auto. split; auto. intros [L|[_ L]]; auto.
  - right. rewrite Em. unfold resolveType in Ht. destruct (filter _ _) as [|a r] eqn:EF; [discriminate|]. assert (Et : t' = typeFromSlice (a :: r)) by congruence. subst t'.
    assert (NE : ~ In "" (a :: r)).
    { rewrite RN by auto. intros [I _]. destruct (sType n) as [[sg mu]|]; cbn in *; [|repeat destruct I as [I|I]; try discriminate I; auto].
      destruct mu; [tauto|]. destruct I as [I|[]]. auto. }
    destruct (fromSlice_names (a :: r)) as [A B]; [discriminate|exact NE|]. split; auto. rewrite A. split; [exists a; left; auto|].
    intros u. apply RN; auto.
Qed.

(* a negated schema that says something about the values keeps the types *)
Lemma notMerge_type_kept : forall E fuel n x s m c s',
  notMerge E fuel n x s = Ok ((m, c), s') -> properType (sType n) -> hasValueConstraints x = true ->
  properType (sType m) /\ typeNames (sType m) = typeNames (sType n).
Proof.
  intros E fuel n x s m c s' H P V. destruct fuel as [|f]; [discriminate|]. cbn [notMerge] in H.
  assert (F : forall l : list string, filter (fun t => negb (mem_string t (expandNotTypes (nodeTypes x true)) && negb (hasValueConstraints x))) l = l).
  { rewrite V. cbn [negb]. induction l as [|u l IH]; [reflexivity|]. cbn [filter]. rewrite andb_false_r. cbn [negb]. rewrite IH. reflexivity. }
  assert (NE : ~ In "" (typeNames (sType n)) /\ typeNames (sType n) <> []).
  { destruct (sType n) as [[sg mu]|]; cbn in *; [|split; [intros I; repeat destruct I as [I|I]; try discriminate I; auto|discriminate]].
    destruct mu; [tauto|]. split; [intros [I|[]]; auto|discriminate]. }
  destruct (notMerge_ok E f _ _ _ _ _ _ H) as [(HN & _ & R)|(t' & Ht & Em & _)]; unfold resolveType in *; rewrite F, (nodeTypes_names n P) in *.
  - destruct (typeNames (sType n)); [destruct NE; congruence|discriminate HN].
  - rewrite Em. destruct NE as [N1 N2]. destruct (typeNames (sType n)) as [|a r]; [congruence|]. injection Ht as <-.
    destruct (fromSlice_names (a :: r)) as [A B]; auto; discriminate.
Qed.

(* at the level of values: what the remaining types allow was allowed before and is not of a negated type *)
Lemma hasType_excl : forall u w v, hasType u v -> hasType w v -> u = w \/ (u = "integer" /\ w = "number") \/ (u = "number" /\ w = "integer").
Proof.
  intros u w v H1 H2. unfold hasType in *.
  destruct H1 as [[-> H1]|[[-> H1]|[[-> H1]|[[-> H1]|[[-> H1]|[[-> H1]|[-> H1]]]]]]];
  destruct H2 as [[-> H2]|[[-> H2]|[[-> H2]|[[-> H2]|[[-> H2]|[[-> H2]|[-> H2]]]]]]]; auto; exfalso; subst;
  repeat match goal with H : exists _, _ |- _ => destruct H | H : _ /\ _ |- _ => destruct H end; subst;
  repeat match goal with H : numberValue _ _ |- _ => cbn in H end; try contradiction; try discriminate.
Qed.
Lemma okType_names : forall t v, properType t -> (okType t v <-> t = None \/ exists u, In u (typeNames t) /\ hasType u v).
Proof.
  intros [[sg mu]|] v P; cbn in *.
  - destruct mu as [l|]; split.
    + auto.
    + intros [K|K]; [discriminate|auto].
    + intros K. right. exists sg. split; [left; reflexivity|auto].
    + intros [K|(u & [<-|[]] & K)] _; [discriminate|auto].
  - tauto.
Qed.
Theorem notMerge_type_values : forall E fuel n t s m c s' v,
  notMerge E fuel n (set_sType (Some t) emptyNode) s = Ok ((m, c), s') -> properType (sType n) -> properType (Some t) ->
  (In "integer" (typeNames (Some t)) -> In "number" (typeNames (Some t))) ->
  reports s s' "type" \/ (okType (sType m) v -> okType (sType n) v /\ ~ okType (Some t) v).
Proof.
  intros E fuel n t s m c s' v H P Q HI.
  destruct (notMerge_type E fuel n t s m c s' H P Q) as [[R _]|(PM & (u0 & U0) & N)]; auto. right. intros O.
  assert (S : sType m <> None).
  { destruct fuel as [|f]; [discriminate|]. cbn [notMerge] in H. destruct (notMerge_ok E f _ _ _ _ _ _ H) as [(HN & _ & R)|(t' & Ht & Em & _)]; [|congruence].
    exfalso. pose proof (resolveType_names n t u0 P Q) as K. unfold resolveType in HN. destruct (filter _ _) eqn:EF; [|discriminate]. apply (proj2 K). apply N. auto. }
  apply okType_names in O; auto. destruct O as [O|(u & Hu & Tu)]; [contradiction|]. apply N in Hu. destruct Hu as [Hu Nu].
  split. { apply okType_names; auto. right. eauto. }
  intros K. apply okType_names in K; auto. destruct K as [K|(w & Hw & Tw)]; [discriminate|].
  destruct (hasType_excl u w v Tu Tw) as [->|[[-> ->]|[-> ->]]]; apply Nu.
  - left. auto.
  - right. auto.
  - left. auto.
Qed.

(* ------------------------------------------------------------------ concrete cases and counterexamples *)
Open Scope Z_scope.
Definition typed (t : string) (n : schemaNode) : schemaNode := set_sType (Some (mkMT t None)) n.

(* not { minLength: 2147483648 } forbids nothing *)
Definition nlong : schemaNode := set_sMinLength (Some (2 ^ 31)) emptyNode.
Lemma int_bounds_lost : exists m c s', notMerge demoPE 5 (typed "string" emptyNode) nlong demoP = Ok ((m, c), s') /\ pErrs s' = [] /\
  sMinLength m = None /\ sMaxLength m = None /\ okRange (sMinLength nlong) (sMaxLength nlong) (2 ^ 31).
Proof.
  assert (H : okM (notMerge demoPE 5 (typed "string" emptyNode) nlong demoP) (fun mc s =>
      match sMinLength (fst mc), sMaxLength (fst mc), pErrs s with None, None, [] => true | _, _, _ => false end) = true) by (vm_compute; reflexivity).
  apply okM_ex in H. destruct H as ([m c] & s & H1 & H2). exists m, c, s. split; auto. clear H1. cbn in H2.
  destruct (sMinLength m), (sMaxLength m), (pErrs s); try discriminate H2. repeat split; auto.
  - intros a E. inversion E. lia.
  - intros b E. discriminate E.
Qed.

(* { minLength 2, maxLength 9 } and not { minLength 5 } *)
Lemma int_bounds_case : exists m c s',
  notMerge demoPE 5 (typed "string" (set_sMinLength (Some 2) (set_sMaxLength (Some 9) emptyNode))) (set_sMinLength (Some 5) emptyNode) demoP = Ok ((m, c), s') /\
  pErrs s' = [] /\ sMinLength m = Some 2 /\ sMaxLength m = Some 4.
Proof.
  assert (H : okM (notMerge demoPE 5 (typed "string" (set_sMinLength (Some 2) (set_sMaxLength (Some 9) emptyNode))) (set_sMinLength (Some 5) emptyNode) demoP) (fun mc s =>
      match sMinLength (fst mc), sMaxLength (fst mc), pErrs s with Some 2, Some 4, [] => true | _, _, _ => false end) = true) by (vm_compute; reflexivity).
  apply okM_ex in H. destruct H as ([m c] & s & H1 & H2). exists m, c, s. split; auto. clear H1. cbn in H2.
  destruct (sMinLength m) as [[|[[p|p|]|[p|p|]|]|p]|]; try discriminate H2. destruct (sMaxLength m) as [[|[[p|p|]|[[p|p|]|[p|p|]|]|]|p]|]; try discriminate H2. destruct (pErrs s); try discriminate H2. auto.
Qed.

(* not { minimum: 1000 } still allows 1000 *)
Definition n1000 : schemaNode := set_sMinimum (Some (fofZ 1000)) emptyNode.
Lemma number_bounds_lost : exists m c s', notMerge demoPE 5 (typed "number" emptyNode) n1000 demoP = Ok ((m, c), s') /\ pErrs s' = [] /\
  okBounds m 1000 /\ okBounds n1000 1000.
Proof.
  assert (H : okM (notMerge demoPE 5 (typed "number" emptyNode) n1000 demoP) (fun mc s =>
      match sMinimum (fst mc), sMaximum (fst mc), sExclusiveMinimum (fst mc), sExclusiveMaximum (fst mc), pErrs s with
      None, Some v, None, None, [] => feqb v (fofZ 1000) && is_finite v | _, _, _, _, _ => false end) = true) by (vm_compute; reflexivity).
  destruct (fofZ_exact 1000 ltac:(lia)) as [V F].
  apply okM_ex in H. destruct H as ([m c] & s & H1 & H2). exists m, c, s. split; auto. clear H1. cbn [fst] in H2.
  destruct (sMinimum m) eqn:E1; [discriminate H2|]. destruct (sMaximum m) as [v|] eqn:E2; [|discriminate H2].
  destruct (sExclusiveMinimum m) eqn:E3; [discriminate H2|]. destruct (sExclusiveMaximum m) eqn:E4; [discriminate H2|]. destruct (pErrs s); [|discriminate H2].
  apply andb_prop in H2. destruct H2 as [H2 Fv]. apply (proj1 (feqb_eq _ _ Fv F)) in H2. rewrite V in H2. split; auto.
  split; unfold okBounds, okMinimum, okMaximum, okExclusiveMinimum, okExclusiveMaximum.
  - rewrite E1, E2, E3, E4. repeat split; try discriminate. intros a Ea. injection Ea. intros <-. unfold val in H2. rewrite H2. apply Rle_refl.
  - unfold n1000. cbn [sMinimum sMaximum sExclusiveMinimum sExclusiveMaximum set_sMinimum emptyNode]. repeat split; try discriminate. intros a Ea. injection Ea. intros <-. unfold val in V. rewrite V. apply Rle_refl.
Qed.

(* { type integer, minimum 3 } and not { exclusiveMinimum 10 }: 3..10 remains *)
Lemma number_int_case :
  let n := typed "integer" (set_sMinimum (Some (fofZ 3)) emptyNode) in let x := set_sExclusiveMinimum (Some (fofZ 10)) emptyNode in
  properType (sType n) /\ plainNumber x /\
  (forall a, In (Some a) (boundList n ++ boundList x) -> is_finite a = true /\ exists k, B2R a = IZR k /\ (Z.abs k <= 2 ^ 50)%Z) /\
  exists m c s', notMerge demoPE 5 n x demoP = Ok ((m, c), s') /\ pErrs s' = [] /\ In "integer" (typeNames (sType m)).
Proof.
  cbv zeta. split; [discriminate|]. split; [split; [reflexivity|exact I]|]. split.
  - destruct (fofZ_exact 3 ltac:(lia)) as [V3 F3]. destruct (fofZ_exact 10 ltac:(lia)) as [V4 F4].
    revert V3 F3 V4 F4. generalize (fofZ 3) (fofZ 10). intros p q V3 F3 V4 F4 a Ha. cbn in Ha.
    repeat destruct Ha as [Ha|Ha]; try discriminate Ha; try contradiction; injection Ha; intros <-; split; auto; [exists 3|exists 10]; split; auto; lia.
  - assert (H : okM (notMerge demoPE 5 (typed "integer" (set_sMinimum (Some (fofZ 3)) emptyNode)) (set_sExclusiveMinimum (Some (fofZ 10)) emptyNode) demoP) (fun mc s =>
      match sType (fst mc), pErrs s with Some t, [] => match mtMultiple t with None => String.eqb (mtSingle t) "integer" | _ => false end | _, _ => false end) = true) by (vm_compute; reflexivity).
    apply okM_ex in H. destruct H as ([m c] & s & H1 & H2). exists m, c, s. split; auto. clear H1. cbn [fst] in H2.
    destruct (sType m) as [[sg mu]|]; [|discriminate H2]. destruct (pErrs s); [|discriminate H2]. cbn in H2. destruct mu; [discriminate H2|]. apply String.eqb_eq in H2. subst. cbn. auto.
Qed.

Lemma number_real_case :
  let n := typed "number" (set_sExclusiveMaximum (Some (fofZ 30)) emptyNode) in let x := set_sMinimum (Some (fofZ 10)) emptyNode in
  properType (sType n) /\ plainNumber x /\ sExclusiveMinimum x = None /\ sExclusiveMaximum x = None /\
  (forall a, In (Some a) (boundList n ++ boundList x) -> is_finite a = true /\ (Rabs (B2R a) <= 127)%R) /\
  exists m c s', notMerge demoPE 5 n x demoP = Ok ((m, c), s') /\ pErrs s' = [] /\ ~ In "integer" (typeNames (sType m)).
Proof.
  cbv zeta. split; [discriminate|]. split; [split; [reflexivity|exact I]|]. split; [reflexivity|]. split; [reflexivity|]. split.
  - destruct (fofZ_exact 30 ltac:(lia)) as [V3 F3]. destruct (fofZ_exact 10 ltac:(lia)) as [V4 F4].
    revert V3 F3 V4 F4. generalize (fofZ 30) (fofZ 10). intros p q V3 F3 V4 F4 a Ha. cbn in Ha.
    repeat destruct Ha as [Ha|Ha]; try discriminate Ha; try contradiction; injection Ha; intros <-; split; auto; unfold val in *; rewrite ?V3, ?V4; rewrite <- abs_IZR; apply IZR_le; lia.
  - assert (H : okM (notMerge demoPE 5 (typed "number" (set_sExclusiveMaximum (Some (fofZ 30)) emptyNode)) (set_sMinimum (Some (fofZ 10)) emptyNode) demoP) (fun mc s =>
      match sType (fst mc), pErrs s with Some t, [] => match mtMultiple t with None => String.eqb (mtSingle t) "number" | _ => false end | _, _ => false end) = true) by (vm_compute; reflexivity).
    apply okM_ex in H. destruct H as ([m c] & s & H1 & H2). exists m, c, s. split; auto. clear H1. cbn [fst] in H2.
    destruct (sType m) as [[sg mu]|]; [|discriminate H2]. destruct (pErrs s); [|discriminate H2]. cbn in H2. destruct mu; [discriminate H2|]. apply String.eqb_eq in H2. subst. cbn. split; auto. intros [K|[]]. discriminate K.
Qed.

Lemma type_case : exists m c s', notMerge demoPE 5 emptyNode (typed "number" emptyNode) demoP = Ok ((m, c), s') /\ pErrs s' = [] /\
  typeNames (sType m) = ["object"; "array"; "string"; "boolean"; "null"].
Proof. eexists. eexists. eexists. split; [vm_compute; reflexivity|]. split; reflexivity. Qed.
