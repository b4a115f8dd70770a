(* Errors recorded inside a node: branches and conditions that do not compile, patterns that are not
   understood.  The proofs behind C30. *)
From Coq Require Import ZArith List String Ascii Bool Lia.
From Verif Require Import Base Float64 Json Schema NodeFacts Util Number Options Gen Codec PState PFacts RefPath Merge NotMerge Parse ParseKeep SpecParse ParseShape.
Import ListNotations.
Open Scope string_scope.
Open Scope Z_scope.

Section Report.
Variable E : penv.

Lemma keeps_error : forall s s' d p, keeps E s s' -> errorAt s d p -> errorAt s' d p.
Proof. intros s s' d p K [t H]. destruct (kErrs _ _ _ K) as [l Hl]. exists t. rewrite Hl. apply in_or_app. auto. Qed.
Lemma added : forall sub tag s u s', addErrSub sub tag s = Ok (u, s') -> errorAt s' (pParsing s) (pPath s ++ sub).
Proof. intros sub tag s u s' H. apply pmod_ok in H. subst s'. exists tag. cbn. auto. Qed.

Lemma parseNode_around : forall fuel n s r s', parseNode E fuel n s = Ok (r, s') -> pDepth s + 1 <= pxMaxDepth E ->
  exists f s1 r0 s2, pPath s1 = pPath s /\ pParsing s1 = pParsing s /\ keeps E s s' /\ (forall d p, errorAt s2 d p -> errorAt s' d p) /\
    stepF E f n s1 = Ok (r0, s2) /\ r = match sConstraints n with Some c => Good (GConstrained (orNull r0) [CMulti c]) | None => r0 end.
Proof.
  intros fuel n s r s' H HD. pose proof (st_parseNode E fuel n s r s' H) as K. unfold parseNode in H. destruct fuel as [|f]; [discriminate|].
  cbn [parseF] in H. unfold nodeStep in H.
  apply pbind_ok in H. destruct H as (a & s0 & H0 & H). apply pget_ok in H0. destruct H0 as [-> ->].
  apply pbind_ok in H. destruct H as (u & s0 & H0 & H). apply pmod_ok in H0. subst s0.
  apply pbind_ok in H. destruct H as (r1 & s3 & H0 & H).
  apply pbind_ok in H. destruct H as (a & s4 & H1 & H). apply pget_ok in H1. destruct H1 as [-> ->].
  apply pbind_ok in H. destruct H as (a & s5 & H1 & H). apply pmod_ok in H1. subst s5. apply pret_ok in H. destruct H as [-> ->].
  destruct (Z.ltb_spec (pxMaxDepth E) (pDepth s + 1)); [lia|].
  apply pbind_ok in H0. destruct H0 as (a1 & s5 & H1 & H0). apply pmod_ok in H1. subst s5.
  apply pbind_ok in H0. destruct H0 as (r2 & s6 & H1 & H0). destruct f as [|f]; [discriminate|].
  change (parseF E (S f) true n) with (stepF E f n) in H1. match type of H1 with stepF _ _ _ ?z = _ => exists f, z, r2, s6 end.
  split; [reflexivity|]. split; [reflexivity|]. split; [exact K|].
  assert (X : keeps E s6 s3 /\ r1 = match sConstraints n with Some c => Good (GConstrained (orNull r2) [CMulti c]) | None => r2 end).
  { apply pbind_ok in H0. destruct H0 as (u1 & s7 & H2 & H0). apply pbind_ok in H0. destruct H0 as (u2 & s8 & H3 & H0). apply pbind_ok in H0. destruct H0 as (u3 & s9 & H4 & H0).
    assert (s3 = s9 /\ r1 = match sConstraints n with Some c => Good (GConstrained (orNull r2) [CMulti c]) | None => r2 end) as [-> ->].
    { destruct (sConstraints n); unfold good in H0; apply pret_ok in H0; destruct H0; auto. }
    split; [|reflexivity]. eapply keeps_trans; [|eapply keeps_trans; [|exact (st_addRef E _ _ _ _ H4)]].
    - destruct (isBad r2); [exact (st_addErr E _ _ _ _ H2)|]. apply pret_ok in H2. destruct H2 as [_ ->]. apply keeps_refl.
    - destruct (sId n); [exact (st_addIdRef E _ _ _ _ _ H3)|]. apply pret_ok in H3. destruct H3 as [_ ->]. apply keeps_refl. }
  destruct X as [X ->]. split; [|split; [exact H1|reflexivity]]. intros d p Y. apply (keeps_error _ _ _ _ X) in Y. destruct Y as [t Y]. exists t. exact Y.
Qed.

(* the compiled ones among some schemas, and the places of the others *)
Lemma compile_keeps : forall n f s r s', compileNode E n f s = Ok (r, s') -> pPath s' = pPath s /\ pParsing s' = pParsing s /\ pErrs s' = pErrs s.
Proof. intros n f s r s' H. unfold compileNode in H. destruct (assoc _ (pRes s)); injection H as _ <-; auto. Qed.
Lemma branches_marks : forall l i s es s', compileBranches E i l s = Ok (es, s') ->
  exists marks : list (option schemaNode), List.length marks = List.length l /\ es = flat_map onode marks /\
    forall j, nth_error marks j = Some None -> errorAt s' (pParsing s) (pPath s ++ "oneOf/" ++ itoa (i + Z.of_nat j)).
Proof.
  induction l as [|n l IH]; intros i s es s' H; cbn [compileBranches] in H.
  - apply pret_ok in H. destruct H as [-> ->]. exists []. split; [reflexivity|]. split; [reflexivity|]. intros [|j] X; discriminate.
  - apply pbind_ok in H. destruct H as (c & s0 & H0 & H). pose proof (compile_keeps _ _ _ _ _ H0) as (A & B & C).
    destruct c as [c|e].
    + apply pbind_ok in H. destruct H as (es0 & s1 & H1 & H). apply pret_ok in H. destruct H as [-> ->].
      apply IH in H1. destruct H1 as (marks & M1 & M2 & M3). exists (Some c :: marks). split; [cbn; congruence|]. split; [cbn; congruence|].
      intros [|j] X; [discriminate|]. rewrite <- A, <- B. replace (i + Z.of_nat (S j)) with (i + 1 + Z.of_nat j) by lia. apply M3. exact X.
    + apply pbind_ok in H. destruct H as (u & s1 & H1 & H). pose proof (st_compileBranches E _ _ _ _ _ H) as K.
      pose proof (st_addErrSub E _ _ _ _ _ H1) as K1. apply IH in H. destruct H as (marks & M1 & M2 & M3).
      exists (None :: marks). split; [cbn; congruence|]. split; [exact M2|].
      intros [|j] X.
      * rewrite <- A, <- B, Z.add_0_r. apply (keeps_error _ _ _ _ K). eapply added. exact H1.
      * rewrite <- A, <- B, <- (kPath _ _ _ K1), <- (kParsing _ _ _ K1). replace (i + Z.of_nat (S j)) with (i + 1 + Z.of_nat j) by lia. apply M3. exact X.
Qed.

Lemma combination_marks : forall f n s g s' l, parseCombination E (parseF E f false) (merge E f) n s = Ok (Good g, s') ->
  sOneOf n = Some l -> (2 <= List.length l)%nat ->
  exists gs es (marks : list (option schemaNode)), g = GConstrained (GComb gs) [COneOf es] /\ List.length gs = List.length l /\
    List.length marks = List.length l /\ es = flat_map onode marks /\
    forall j, nth_error marks j = Some None -> errorAt s' (pParsing s) (pPath s ++ "oneOf/" ++ itoa (Z.of_nat j)).
Proof.
  intros f n s g s' l H Hl HL. unfold parseCombination in H. rewrite Hl in H. cbn [get_or] in H.
  destruct l as [|a [|b l]]; [cbn in HL; lia|cbn in HL; lia|].
  apply pbind_ok in H. destruct H as (gs & s0 & H0 & H).
  apply pbind_ok in H. destruct H as (ms & s1 & H1 & H). apply pbind_ok in H. destruct H as (es & s2 & H2 & H).
  apply good_ok in H. destruct H as [-> ->].
  assert (HN : forall n, stable E (parseF E f false n)) by (intros; apply st_parseF). assert (HM : forall l, stable E (merge E f l)) by (intros; apply st_merge).
  pose proof (keeps_trans _ _ _ _ (st_parseBranches E _ _ HN HM _ _ _ _ _ _ _ H0) (st_mergeEach E _ HM _ _ _ _ H1)) as K.
  apply branches_marks in H2. destruct H2 as (marks & M1 & M2 & M3). exists gs, es, marks. split; [reflexivity|].
  split.
  - clear - H0. assert (G : forall l i z gs z', parseBranches E (parseF E f false) (merge E f) true i n l z = Ok (gs, z') -> List.length gs = List.length l).
    { clear. induction l as [|x l IH]; intros i z gs z' H; cbn [parseBranches] in H; [apply pret_ok in H; destruct H as [-> _]; reflexivity|].
      do 5 (apply pbind_ok in H; destruct H as (? & ? & ? & H)). apply pret_ok in H. destruct H as [-> _]. cbn. f_equal. eapply IH. eassumption. }
    eapply G. exact H0.
  - split; [|split; [exact M2|]].
    + rewrite M1. clear - H1. assert (G : forall l z gs z', mergeEach (merge E f) l z = Ok (gs, z') -> List.length gs = List.length l).
      { clear. induction l as [|x l IH]; intros z gs z' H; cbn [mergeEach] in H; [apply pret_ok in H; destruct H as [-> _]; reflexivity|].
        do 2 (apply pbind_ok in H; destruct H as (? & ? & ? & H)). apply pret_ok in H. destruct H as [-> _]. cbn. f_equal. eapply IH. eassumption. }
      eapply G. exact H1.
    + intros j X. apply M3 in X. rewrite (kPath _ _ _ K), (kParsing _ _ _ K) in X. exact X.
Qed.

Lemma body_reported : forall f fld n b s r s', parseIfBody E (parseF E f false) (merge E f) fld n b s = Ok (r, s') -> b <> None ->
  r <> None \/ errorAt s' (pParsing s) (pPath s ++ "/" ++ fld).
Proof.
  intros f fld n [b|] s r s' H HB; [|congruence]. cbn [parseIfBody] in H.
  assert (HN : forall n, stable E (parseF E f false n)) by (intros; apply st_parseF). assert (HM : forall l, stable E (merge E f l)) by (intros; apply st_merge).
  apply pbind_ok in H. destruct H as (m & s0 & H0 & H). apply pbind_ok in H. destruct H as (x & s1 & H1 & H).
  pose proof (keeps_trans _ _ _ _ (HM _ _ _ _ H0) (st_inScope E _ HN _ _ _ _ _ _ H1)) as K.
  destruct x as [g|e]; [apply pret_ok in H; destruct H as [-> _]; left; discriminate|].
  apply pbind_ok in H. destruct H as (u & s2 & H2 & H). apply pret_ok in H. destruct H as [-> ->]. right.
  rewrite <- (kPath _ _ _ K), <- (kParsing _ _ _ K). exact (added _ _ _ _ _ H2).
Qed.
Lemma condition_reported : forall f n fld st s r s', compileIf E (parseF E f false) (merge E f) n fld st s = Ok (Good r, s') ->
  (ifThen st <> None -> fst (snd r) <> None \/ errorAt s' (pParsing s) (pPath s ++ "/" ++ "/then")) /\
  (ifElse st <> None -> snd (snd r) <> None \/ errorAt s' (pParsing s) (pPath s ++ "/" ++ "/else")).
Proof.
  intros f n fld st s r s' H. unfold compileIf in H. destruct (ifIf st) as [c|]; [|apply bad_ok in H; tauto].
  assert (H' : (let* s := pget in let* k := compileNode E c (pPath s ++ "/" ++ fld) in
          match k with Bad e => bad e | Good eff =>
              let* t := parseIfBody E (parseF E f false) (merge E f) "/then" n (ifThen st) in
              let* e := parseIfBody E (parseF E f false) (merge E f) "/else" n (ifElse st) in good (eff, (t, e)) end) s = Ok (Good r, s'))
    by (destruct (ifThen st), (ifElse st); try exact H; apply bad_ok in H; tauto). clear H. rename H' into H.
  apply pbind_ok in H. destruct H as (a & s0 & H0 & H). apply pget_ok in H0. destruct H0 as [-> ->].
  apply pbind_ok in H. destruct H as (k & s0 & H0 & H). pose proof (compile_keeps _ _ _ _ _ H0) as (A & B & _).
  destruct k as [eff|e]; [|apply bad_ok in H; tauto].
  apply pbind_ok in H. destruct H as (t & s1 & H1 & H). apply pbind_ok in H. destruct H as (e & s2 & H2 & H). apply good_ok in H. destruct H as [-> ->]. cbn [fst snd].
  assert (HN : forall n, stable E (parseF E f false n)) by (intros; apply st_parseF). assert (HM : forall l, stable E (merge E f l)) by (intros; apply st_merge).
  pose proof (st_parseIfBody E _ _ HN HM _ _ _ _ _ _ H1) as K1. pose proof (st_parseIfBody E _ _ HN HM _ _ _ _ _ _ H2) as K2.
  split; intros X.
  - apply (body_reported _ _ _ _ _ _ _ H1) in X. destruct X as [X|X]; [auto|]. right. rewrite <- A, <- B. exact (keeps_error _ _ _ _ K2 X).
  - apply (body_reported _ _ _ _ _ _ _ H2) in X. destruct X as [X|X]; [auto|]. right. rewrite <- A, <- B, <- (kPath _ _ _ K1), <- (kParsing _ _ _ K1). exact X.
Qed.
Lemma if_reported : forall f n s g s', parseIf E (parseF E f false) (parseF E f true) (merge E f) n s = Ok (Good g, s') -> sIf n <> None -> sMergedIf n = [] ->
  exists g0, (exists c t e, g = GConstrained g0 [CIf [(c, (t, e))]] /\
      (sThen n <> None -> t <> None \/ errorAt s' (pParsing s) (pPath s ++ "/" ++ "/then")) /\
      (sElse n <> None -> e <> None \/ errorAt s' (pParsing s) (pPath s ++ "/" ++ "/else"))) \/
    (g = g0 /\ errorAt s' (pParsing s) (pPath s ++ "/if/config_compile_error")).
Proof.
  intros f n s g s' H HI HM. unfold parseIf in H.
  apply pbind_ok in H. destruct H as (a & s0 & H0 & H). apply pget_ok in H0. destruct H0 as [-> ->].
  rewrite HM in H. destruct (sIf n) as [c|] eqn:Ei; [|congruence]. cbn [app] in H.
  apply pbind_ok in H. destruct H as (r & s0 & H0 & H). apply (st_parseF E) in H0. destruct r as [g0|e]; [|apply bad_ok in H; tauto].
  exists g0. apply pbind_ok in H. destruct H as (cs & s1 & H1 & H). cbn [compileIfs] in H1.
  apply pbind_ok in H1. destruct H1 as (k & s2 & H2 & H1).
  destruct k as [[c0 [t e]]|e].
  - apply pbind_ok in H1. destruct H1 as (ks & s3 & H3 & H1). apply pret_ok in H3. destruct H3 as [-> ->]. apply pret_ok in H1. destruct H1 as [-> ->].
    apply good_ok in H. destruct H as [-> ->]. left. exists c0, t, e. split; [reflexivity|].
    apply condition_reported in H2. cbn [fst snd newIf ifThen ifElse] in H2. rewrite (kPath _ _ _ H0), (kParsing _ _ _ H0) in H2. exact H2.
  - apply pbind_ok in H1. destruct H1 as (u & s3 & H3 & H1). apply pret_ok in H1. destruct H1 as [-> ->].
    apply pbind_ok in H. destruct H as (u1 & s4 & H4 & H). apply good_ok in H. destruct H as [-> ->]. right. split; [reflexivity|].
    assert (HN : forall n, stable E (parseF E f false n)) by (intros; apply st_parseF). assert (HG : forall l, stable E (merge E f l)) by (intros; apply st_merge).
    pose proof (st_compileIf E _ _ HN HG _ _ _ _ _ _ H2) as K2. pose proof (st_addErrSub E _ _ _ _ _ H3) as K3.
    pose proof (keeps_trans _ _ _ _ H0 (keeps_trans _ _ _ _ K2 K3)) as K. rewrite <- (kPath _ _ _ K), <- (kParsing _ _ _ K). exact (added _ _ _ _ _ H4).
Qed.

Lemma patterns_reported : forall f l s gs s', parsePatterns E (parseF E f false) l s = Ok (gs, s') ->
  map fst gs = map fst l /\ forall k b g, In (k, (b, g)) gs -> b = pxPropRegexOk E k /\ (b = false -> errorAt s' (pParsing s) (pPath s ++ "/regex/" ++ k)).
Proof.
  assert (HN : forall f n, stable E (parseF E f false n)) by (intros; apply st_parseF).
  intros f. induction l as [|[k n] l IH]; intros s gs s' H; cbn [parsePatterns] in H.
  - apply pret_ok in H. destruct H as [-> _]. split; [reflexivity|]. intros k b g [].
  - apply pbind_ok in H. destruct H as (g & s0 & H0 & H). cbv zeta in H. apply pbind_ok in H. destruct H as (u & s1 & H1 & H).
    apply pbind_ok in H. destruct H as (gs0 & s2 & H2 & H). apply pret_ok in H. destruct H as [-> ->].
    pose proof (st_inScope E _ (HN f) _ _ _ _ _ _ H0) as K0. pose proof (st_parsePatterns E _ (HN f) _ _ _ _ H2) as K2.
    assert (K1 : keeps E s0 s1) by (destruct (pxPropRegexOk E k); [apply pret_ok in H1; destruct H1 as [_ ->]; apply keeps_refl|exact (st_addErrSub E _ _ _ _ _ H1)]).
    apply IH in H2. destruct H2 as [M1 M2]. split; [cbn; congruence|]. intros k' b g' [X|X].
    + injection X as <- <- <-. split; [reflexivity|]. intros F. rewrite F in H1. rewrite <- (kPath _ _ _ K0), <- (kParsing _ _ _ K0).
      apply (keeps_error _ _ _ _ K2). exact (added _ _ _ _ _ H1).
    + destruct (M2 _ _ _ X) as [Y1 Y2]. split; [exact Y1|]. pose proof (keeps_trans _ _ _ _ K0 K1) as K. rewrite <- (kPath _ _ _ K), <- (kParsing _ _ _ K). exact Y2.
Qed.
Lemma object_reported : forall f n s g s', parseObject E (parseF E f false) n s = Ok (Good g, s') ->
  exists ps pats add cf, g = GObject ps pats add cf /\ map fst pats = map fst (get_or (sPatternProperties n) []) /\
    forall k b c, In (k, (b, c)) pats -> b = pxPropRegexOk E k /\ (b = false -> errorAt s' (pParsing s) (pPath s ++ "/regex/" ++ k)).
Proof.
  assert (HN : forall f n, stable E (parseF E f false n)) by (intros; apply st_parseF).
  intros f n s g s' H. unfold parseObject in H.
  repeat match type of H with (if ?b then bad _ else _) _ = _ => destruct b; [apply bad_ok in H; tauto|] end.
  apply pbind_ok in H. destruct H as (pats & s0 & H0 & H).
  apply pbind_ok in H. destruct H as (ps & s1 & H1 & H).
  apply pbind_ok in H. destruct H as (add & s2 & H2 & H). apply good_ok in H. destruct H as [-> ->].
  assert (K2 : keeps E s1 s2).
  { match type of H2 with match ?x with _ => _ end _ = _ => destruct x end.
    - apply pbind_ok in H2. destruct H2 as (x & z & H3 & H2). apply pret_ok in H2. destruct H2 as [_ ->]. exact (st_inScope E _ (HN f) _ _ _ _ _ _ H3).
    - apply pret_ok in H2. destruct H2 as [_ ->]. apply keeps_refl. }
  pose proof (keeps_trans _ _ _ _ (st_parseProps E _ (HN f) _ _ _ _ H1) K2) as K.
  apply patterns_reported in H0. destruct H0 as [M1 M2]. eexists ps, pats, add, _. split; [reflexivity|]. split; [exact M1|].
  intros k b c I. destruct (M2 _ _ _ I) as [A B]. split; [exact A|]. intros F. exact (keeps_error _ _ _ _ K (B F)).
Qed.
End Report.
