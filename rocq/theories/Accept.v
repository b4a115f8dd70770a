(* When the parser accepts a plain string, object or array schema, and when it refuses one. *)
From Coq Require Import ZArith List String Bool Lia.
From Verif Require Import Base Float64 Json Schema Util Number Gen GenInv PState RefPath Merge NotMerge Parse PFacts SpecRun ParseShape SpecAccept.
Import ListNotations.
Open Scope string_scope.
Open Scope Z_scope.

Section Accept.
Variable PE : penv.

Lemma good_any : forall A (x : A) s r s', good x s = Ok (r, s') -> r = Good x.
Proof. unfold good. intros A x s r s' H. apply pret_ok in H. tauto. Qed.
Lemma bad_any : forall A t s (r : err A) s', bad t s = Ok (r, s') -> r = Bad t.
Proof. unfold bad. intros A t s r s' H. apply pret_ok in H. tauto. Qed.

(* a plain node of one type within the depth limit is handed to parseType *)
Lemma typed_run : forall n t fuel s r s', plain n -> ofType t n -> t <> "" -> noDependents n ->
  pDepth s + 1 <= pxMaxDepth PE -> parseNode PE fuel n s = Ok (r, s') ->
  exists f s1 s2, parseType PE (parseF PE f false) (merge PE f) t n s1 = Ok (r, s2).
Proof.
  intros n t fuel s r s' HP HT Ht [U1 U2] HD H. apply parseNode_inv in H.
  destruct H as (f & -> & [(_ & H)|(_ & f' & s1 & r0 & s2 & _ & _ & _ & _ & _ & _ & H & H1)]); [lia|].
  rewrite (plConstraints n HP) in H1. subst r0. exists f', s1, s2.
  rewrite step_plain in H; auto.
  - unfold byType in H. rewrite HT in H. cbn [mtMultiple mtSingle] in H.
    destruct (String.eqb_spec t ""); [congruence|]. exact H.
  - unfold unsupported. now rewrite U1, U2.
Qed.

(* ---------------------------------------------------------------- strings *)
Lemma string_decided : forall n fuel s r s', plain n -> ofType "string" n -> noDependents n ->
  pDepth s + 1 <= pxMaxDepth PE -> parseNode PE fuel n s = Ok (r, s') ->
  ((exists g, r = Good g) <-> stringFits PE n).
Proof.
  intros n fuel s r s' HP HT HU HD H. apply (typed_run n "string") in H; auto; [|discriminate].
  destruct H as (f & s1 & s2 & H). change (parseString PE n s1 = Ok (r, s2)) in H.
  unfold parseString in H. unfold stringFits, fits.
  destruct (sFormat n) as [fm|], (sPattern n) as [p|], (sMinLength n) as [a|], (sMaxLength n) as [b|];
    cbn [get_or is_some andb orb negb] in *;
    repeat match type of H with
    | (if ?c then _ else _) _ = _ => destruct c eqn:?
    end; try (apply bad_any in H; subst r); try (apply good_any in H; subst r);
    (split; [intros [g Hg]; try discriminate Hg; repeat split; intros; try congruence; try tauto; try lia
            |intros ((X1 & X2 & X5) & X3 & X4 & X6); try (eexists; reflexivity); exfalso]);
    try lia; try (destruct X3; discriminate); try (destruct X4 as [[? ?]|[? ?]]; discriminate); try (specialize (X6 _ eq_refl); congruence).
  all: try match goal with |- _ = 0 \/ _ => lia end.
Qed.

Lemma string_satisfiable : forall n fuel s r s' len, plain n -> ofType "string" n -> noDependents n ->
  pDepth s + 1 <= pxMaxDepth PE -> parseNode PE fuel n s = Ok (r, s') ->
  sPattern n = None -> sFormat n = None -> meetsSize (sMinLength n) (sMaxLength n) len ->
  exists g, r = Good g.
Proof.
  intros n fuel s r s' len HP HT HU HD H E1 E2 (A & B & C). apply (string_decided n fuel s r s'); auto.
  unfold stringFits, fits. rewrite E1, E2. split; [|split; [auto|split; [auto|discriminate]]].
  destruct (sMinLength n) as [a|], (sMaxLength n) as [b|]; cbn [get_or];
    try specialize (B _ eq_refl); try specialize (C _ eq_refl); lia.
Qed.

(* ---------------------------------------------------------------- objects *)
Lemma object_decided : forall n fuel s r s', plain n -> ofType "object" n -> noDependents n ->
  pDepth s + 1 <= pxMaxDepth PE -> parseNode PE fuel n s = Ok (r, s') ->
  ((exists g, r = Good g) <-> objectFits n).
Proof.
  intros n fuel s r s' HP HT HU HD H. apply (typed_run n "object") in H; auto; [|discriminate].
  destruct H as (f & s1 & s2 & H). change (parseObject PE (parseF PE f false) n s1 = Ok (r, s2)) in H.
  unfold parseObject in H. cbv zeta in H. unfold objectFits.
  destruct (Z.ltb_spec (get_or (sMinProperties n) 0) 0) as [L1|L1].
  { apply bad_any in H. subst r. split; [intros [g Hg]; discriminate Hg|intros ((X & _) & _); lia]. }
  destruct (Z.ltb_spec (get_or (sMaxProperties n) 0) 0) as [L2|L2].
  { apply bad_any in H. subst r. split; [intros [g Hg]; discriminate Hg|intros ((_ & X) & _); lia]. }
  destruct (is_some (sMaxProperties n) && _) eqn:L3.
  { apply bad_any in H. subst r. split; [intros [g Hg]; discriminate Hg|intros (_ & X & _)].
    apply andb_prop in L3. destruct (sMaxProperties n) as [b|]; [|destruct L3; discriminate]. specialize (X _ eq_refl). cbn [get_or] in *. lia. }
  destruct (is_some (sMaxProperties n) && (_ <? Z.of_nat _)) eqn:L4.
  { apply bad_any in H. subst r. split; [intros [g Hg]; discriminate Hg|intros (_ & X & _)].
    apply andb_prop in L4. destruct (sMaxProperties n) as [b|]; [|destruct L4; discriminate]. specialize (X _ eq_refl). cbn [get_or] in *. lia. }
  assert (AF : nofFalse (get_or (sAdditionalProperties n) (mkNOF None false)) = addlFalse n).
  { unfold addlFalse. destruct (sAdditionalProperties n); reflexivity. }
  rewrite AF in H.
  destruct (addlFalse n && negb (is_some (sPatternProperties n)) && _) eqn:L5.
  { apply bad_any in H. subst r. split; [intros [g Hg]; discriminate Hg|intros (_ & _ & X)].
    apply andb_prop in L5. destruct L5 as [L5 L6]. apply andb_prop in L5. destruct L5 as [L5 L7].
    destruct (sPatternProperties n); [discriminate|]. specialize (X L5 eq_refl). lia. }
  apply pbind_ok in H. destruct H as (a1 & t1 & _ & H).
  apply pbind_ok in H. destruct H as (a2 & t2 & _ & H).
  apply pbind_ok in H. destruct H as (a3 & t3 & _ & H). apply good_any in H. subst r.
  split; [|eauto]. intros _. split; [lia|]. split.
  - intros b Hb. rewrite Hb in *. cbn [get_or is_some andb] in *. lia.
  - intros E1 E2. rewrite E1, E2 in L5. cbn [is_some negb andb] in L5. lia.
Qed.

Lemma object_satisfiable : forall n fuel s r s' keys, plain n -> ofType "object" n -> noDependents n ->
  pDepth s + 1 <= pxMaxDepth PE -> parseNode PE fuel n s = Ok (r, s') ->
  NoDup (get_or (sRequired n) []) -> NoDup keys -> meetsSize (sMinProperties n) (sMaxProperties n) (Z.of_nat (List.length keys)) ->
  incl (get_or (sRequired n) []) keys ->
  (addlFalse n = true -> sPatternProperties n = None -> incl keys (map fst (get_or (sProperties n) []))) ->
  exists g, r = Good g.
Proof.
  intros n fuel s r s' keys HP HT HU HD H N1 N2 (A & B & C) I1 I2. apply (object_decided n fuel s r s'); auto.
  pose proof (NoDup_incl_length N1 I1) as LR. unfold objectFits. split; [|split].
  - destruct (sMinProperties n) as [a|], (sMaxProperties n) as [b|]; cbn [get_or];
      try specialize (B _ eq_refl); try specialize (C _ eq_refl); lia.
  - intros b Hb. specialize (C _ Hb). destruct (sMinProperties n) as [a|]; cbn [get_or]; try specialize (B _ eq_refl); lia.
  - intros E1 E2. pose proof (NoDup_incl_length N2 (I2 E1 E2)) as LK. rewrite map_length in LK.
    destruct (sMinProperties n) as [a|]; cbn [get_or]; try specialize (B _ eq_refl); lia.
Qed.

(* ---------------------------------------------------------------- arrays *)
Lemma badBounds_ok : forall a b, badBounds a b = false <-> ordered a b.
Proof. intros a b. unfold badBounds, ordered. split; intros H; lia. Qed.

Lemma optScope_run : forall f sc o s r s', optScope PE (parseF PE f false) sc o s = Ok (r, s') ->
  (exists x, r = Good x /\ forall c, o = Some c -> exists g, accepted PE c g) \/
  ((exists m, r = Bad m) /\ exists c, o = Some c /\ rejected PE c).
Proof.
  intros f sc o s r s' H. unfold optScope in H. destruct o as [c|].
  - apply pbind_ok in H. destruct H as (r1 & t1 & H1 & H). apply inScope_ok in H1. destruct H1 as (u1 & u2 & H1).
    destruct r1 as [g|m].
    + apply good_any in H. left. exists (Some g). split; auto. intros c' E. injection E as <-. exists g, f, u1, u2. exact H1.
    + apply bad_any in H. right. split; [eauto|]. exists c. split; auto. exists f, u1, u2, m. exact H1.
  - apply good_any in H. left. exists None. split; auto. discriminate.
Qed.

Lemma parseTuple_run : forall f l i s r s', parseTuple PE (parseF PE f false) i l s = Ok (r, s') ->
  (exists x, r = Good x /\ forall c, In c l -> exists g, accepted PE c g) \/
  ((exists m, r = Bad m) /\ exists c, In c l /\ rejected PE c).
Proof.
  intros f. induction l as [|c l IH]; intros i s r s' H; cbn [parseTuple] in H.
  - apply good_any in H. left. exists []. split; auto. intros c [].
  - apply pbind_ok in H. destruct H as (r1 & t1 & H1 & H). apply inScope_ok in H1. destruct H1 as (u1 & u2 & H1).
    destruct r1 as [g|m].
    + apply pbind_ok in H. destruct H as (r2 & t2 & H2 & H). destruct (IH _ _ _ _ H2) as [(x & -> & A)|((m & ->) & c' & I & R)].
      * apply good_any in H. left. exists (g :: x). split; auto. intros c' [<-|I]; auto. exists g, f, u1, u2. exact H1.
      * apply bad_any in H. right. split; [eauto|]. exists c'. split; [right|]; auto.
    + apply bad_any in H. right. split; [eauto|]. exists c. split; [left; auto|]. exists f, u1, u2, m. exact H1.
Qed.

Lemma parseContains_run : forall f n s r s', parseContains PE (parseF PE f false) (merge PE f) n s = Ok (r, s') ->
  (exists x, r = Good x /\ forall c, sContains n = Some c -> exists c' g, containsFrom PE c n c' /\ accepted PE c' g) \/
  ((exists m, r = Bad m) /\ exists c c', sContains n = Some c /\ containsFrom PE c n c' /\ rejected PE c').
Proof.
  intros f n s r s' H. unfold parseContains in H. destruct (sContains n) as [c|].
  - apply pbind_ok in H. destruct H as (c' & t1 & H1 & H).
    assert (CF : containsFrom PE c n c').
    { unfold containsFrom. destruct (sItems n) as [d|].
      - destruct (itNode d) as [it|].
        + apply pbind_ok in H1. destruct H1 as (m & t2 & H1 & H2). apply pret_ok in H2. destruct H2 as [-> _].
          exists f, s, m, t2. auto.
        + apply pret_ok in H1. tauto.
      - apply pret_ok in H1. tauto. }
    apply optScope_run in H. destruct H as [(x & -> & A)|(B & x & E & R)].
    + left. exists x. split; auto. intros k E. injection E as <-. destruct (A _ eq_refl) as [g Hg]. eauto.
    + injection E as <-. right. split; auto. eauto.
  - apply good_any in H. left. exists None. split; auto. discriminate.
Qed.

Lemma array_decided : forall n fuel s r s', plain n -> ofType "array" n -> noDependents n ->
  pDepth s + 1 <= pxMaxDepth PE -> parseNode PE fuel n s = Ok (r, s') ->
  ((exists g, r = Good g) -> arrayFits n /\ memberSchemas PE n) /\
  (arrayFits n -> (exists g, r = Good g) \/ exists c, itemSchema PE n c /\ rejected PE c).
Proof.
  intros n fuel s r s' HP HT HU HD H. apply (typed_run n "array") in H; auto; [|discriminate].
  destruct H as (f & s1 & s2 & H). change (parseArray PE (parseF PE f false) (merge PE f) n s1 = Ok (r, s2)) in H.
  unfold parseArray in H. cbv zeta in H. fold (minContainsOf n) in H. fold (prefixLength n) in H. unfold arrayFits.
  rewrite <- !badBounds_ok.
  destruct (badBounds (get_or (sMinItems n) 0) (get_or (sMaxItems n) 0)) eqn:L1.
  { apply bad_any in H. subst r. split; [intros [g Hg]; discriminate Hg|intros (X & _); congruence]. }
  destruct (badBounds (minContainsOf n) (get_or (sMaxContains n) 0)) eqn:L2.
  { apply bad_any in H. subst r. split; [intros [g Hg]; discriminate Hg|intros (_ & X & _); congruence]. }
  destruct (badBounds (minContainsOf n) (get_or (sMinItems n) 0)) eqn:L3.
  { apply bad_any in H. subst r. split; [intros [g Hg]; discriminate Hg|intros (_ & _ & X & _); congruence]. }
  destruct (badBounds (prefixLength n + minContainsOf n) (get_or (sMaxItems n) 0)) eqn:L4.
  { apply bad_any in H. subst r. split; [intros [g Hg]; discriminate Hg|intros (_ & _ & _ & X & _); congruence]. }
  destruct ((get_or (sMaxItems n) 0 <? prefixLength n) && is_some (sMaxItems n)) eqn:L5.
  { apply bad_any in H. subst r. split; [intros [g Hg]; discriminate Hg|intros (_ & _ & _ & _ & X)].
    apply andb_prop in L5. destruct (sMaxItems n) as [b|]; [|destruct L5; discriminate]. specialize (X _ eq_refl). cbn [get_or] in *. lia. }
  assert (L6 : forall b, sMaxItems n = Some b -> prefixLength n <= b).
  { intros b Hb. rewrite Hb in L5. cbn [get_or is_some] in L5. lia. }
  apply pbind_ok in H. destruct H as (r1 & t1 & H1 & H). apply optScope_run in H1.
  destruct H1 as [(x1 & -> & G1)|((m & ->) & c & E & R)].
  2:{ apply bad_any in H. subst r. split; [intros [g Hg]; discriminate Hg|intros _]. right; exists c; split; [left; exact E|exact R]. }
  apply pbind_ok in H. destruct H as (r2 & t2 & H2 & H). apply optScope_run in H2.
  destruct H2 as [(x2 & -> & G2)|((m & ->) & c & E & R)].
  2:{ apply bad_any in H. subst r. split; [intros [g Hg]; discriminate Hg|intros _]. right; exists c; split; [right; left; exact E|exact R]. }
  apply pbind_ok in H. destruct H as (r3 & t3 & H3 & H). apply parseContains_run in H3.
  destruct H3 as [(x3 & -> & G3)|((m & ->) & c & c' & E & CF & R)].
  2:{ apply bad_any in H. subst r. split; [intros [g Hg]; discriminate Hg|intros _]. right; exists c'; split; [right; right; right; right; eauto|exact R]. }
  apply pbind_ok in H. destruct H as (r4 & t4 & H4 & H). apply parseTuple_run in H4.
  destruct H4 as [(x4 & -> & G4)|((m & ->) & c & E & R)].
  2:{ apply bad_any in H. subst r. split; [intros [g Hg]; discriminate Hg|intros _]. right; exists c; split; [right; right; right; left; exact E|exact R]. }
  apply pbind_ok in H. destruct H as (r5 & t5 & H5 & H). apply optScope_run in H5.
  destruct H5 as [(x5 & -> & G5)|((m & ->) & c & E & R)].
  2:{ apply bad_any in H. subst r. split; [intros [g Hg]; discriminate Hg|intros _]. right; exists c; split; [right; right; left; exact E|exact R]. }
  apply good_any in H. split; [|intros _; left; eauto]. intros _. split; [auto|]. split; [|exact G3].
  intros c [E|[E|[E|E]]]; auto.
Qed.

Lemma array_satisfiable : forall n fuel s r s' len, plain n -> ofType "array" n -> noDependents n ->
  pDepth s + 1 <= pxMaxDepth PE -> parseNode PE fuel n s = Ok (r, s') ->
  sContains n = None -> sMinContains n = None -> sMaxContains n = None ->
  meetsSize (sMinItems n) (sMaxItems n) len -> prefixLength n <= len ->
  (exists g, r = Good g) \/ exists c, itemSchema PE n c /\ rejected PE c.
Proof.
  intros n fuel s r s' len HP HT HU HD H E1 E2 E3 (A & B & C) LP. apply (array_decided n fuel s r s'); auto.
  assert (M0 : minContainsOf n = 0). { unfold minContainsOf. now rewrite E1, E2. }
  assert (P0 : 0 <= prefixLength n) by (unfold prefixLength; lia).
  unfold arrayFits, ordered. rewrite M0, E3. cbn [get_or].
  destruct (sMinItems n) as [a|], (sMaxItems n) as [b|]; cbn [get_or];
    try specialize (B _ eq_refl); try specialize (C _ eq_refl); repeat split; try lia; intros b' Hb'; try discriminate Hb'; injection Hb' as <-; lia.
Qed.
End Accept.
