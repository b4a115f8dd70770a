(* Documents with if, or with oneOf of several branches, at the root: every value generated is valid. *)
From Coq Require Import ZArith List String Ascii Bool Lia.
From Verif Require Import Base Float64 Json Schema Util Rand Options Number Gen GenFacts GenInv GenValues.
From Verif Require Import SpecMerge MergeFacts MergeProps MergeValid MergeSound.
From Verif Require Import PState RefPath Merge NotMerge Parse PFacts ParseKeep SpecNumber SpecSchema SpecRun SpecParse ParseShape ValueProps ConstrProps.
From Verif Require Import SpecFragment Sound Names NamesTidy.
From Verif Require RefProps.
Import ListNotations.
Open Scope string_scope.
Open Scope Z_scope.

(* ------------------------------------------------------------------ names that differ *)
Fixpoint lastOf (c : ascii) (s : string) : ascii := match s with EmptyString => c | String d r => lastOf d r end.
Lemma lastOf_app : forall p c s, s <> "" -> lastOf c (p ++ s) = lastOf c s.
Proof.
  induction p as [|d p IH]; intros c s N; [reflexivity|]. cbn. rewrite IH by auto. destruct s; [congruence|reflexivity].
Qed.
Lemma ends_digit : forall p s, s <> "" -> RefPath.allDigits s = true -> ~ listing (p ++ s).
Proof.
  intros p s N A (q & H).
  assert (D : RefPath.isDigit (lastOf "0" s) = true).
  { clear N H. assert (G : forall c, RefPath.isDigit c = true -> RefPath.isDigit (lastOf c s) = true); [|apply G; reflexivity].
    induction s as [|d r IH]; intros c C; [exact C|]. cbn [RefPath.allDigits] in A. apply andb_prop in A. destruct A as [A1 A2]. cbn [lastOf]. auto. }
  rewrite <- (lastOf_app p "0" s N) in D. destruct H as [H|H]; rewrite H in D; rewrite lastOf_app in D by discriminate; discriminate D.
Qed.
Lemma norm_app : forall x y, normalisePath (x ++ y) = normalisePath x ++ normalisePath y.
Proof. induction x; intros; cbn; [reflexivity|]. rewrite IHx. reflexivity. Qed.
Lemma norm_digits : forall s, RefPath.allDigits s = true -> normalisePath s = s.
Proof.
  induction s as [|c r IH]; intros A; [reflexivity|]. cbn [RefPath.allDigits] in A. apply andb_prop in A. destruct A as [A1 A2]. cbn [normalisePath].
  rewrite (IH A2). destruct (isSanitised c) eqn:S; [|reflexivity]. exfalso.
  destruct c as [[] [] [] [] [] [] [] []]; vm_compute in A1, S; congruence.
Qed.
Lemma itoa_digits : forall i, 0 <= i -> RefPath.allDigits (itoa i) = true /\ itoa i <> "".
Proof.
  intros i I. replace i with (Z.of_nat (Z.to_nat i)) by lia. destruct (RefProps.itoa_nat (Z.to_nat i)) as (u & -> & _ & N).
  split; [apply RefProps.allDigits_uint|exact N].
Qed.
Lemma app_assoc_s : forall x y z : string, (x ++ y) ++ z = x ++ y ++ z.
Proof. induction x; intros; cbn; congruence. Qed.
Lemma app_cancel : forall p a b : string, p ++ a = p ++ b -> a = b.
Proof. induction p as [|c p IH]; intros a b H; [exact H|]. cbn in H. injection H. auto. Qed.

Lemma step_of : forall PE f n s, parseF PE (S f) true n s = stepF PE f n s.
Proof. reflexivity. Qed.

Section Root.
Variable PE : penv.
Variable GE : env.
Variable mt fm : string -> string -> Prop.
Variable rf : string -> json -> Prop.
Hypothesis HO : smallOptions (eOpts GE).
Variable trying : bool.
Variable calm : gst -> gst -> Prop.
Hypothesis Hcut : forall a b, calm a b -> ~ emitted EvCutoff a b.
Hypothesis Hwide : forall a b a' b', calm a b -> after a a' -> after b' b -> calm a' b'.
Hypothesis Hneg : trying = true -> forall a b, calm a b -> ~ emitted EvConstraintFail a b /\ ~ emitted EvUnchecked a b.
Hypothesis Hsame : trying = true -> forall a b, calm a b -> ~ emitted EvUniqueFail a b.
Hypothesis Hun : forall a b, calm a b -> ~ emitted EvUnchecked a b.
Notation Q := (Q GE (valid mt fm rf) calm).
Notation supp := (supported PE GE mt fm rf trying).

(* the generators put together for if *)
Lemma cif_values : forall g0 c th el st v st', yields GE (GConstrained g0 [CIf [(c, (th, el))]]) st v st' ->
  (v = JStr ifFailure /\ emitted EvIfFail st st') \/ (madeBy GE g0 v st st' /\ emitted EvUnchecked st st') \/
  (eValid GE c v = true /\ madeBy GE (get_or th g0) v st st') \/ (eValid GE c v = false /\ madeBy GE (get_or el g0) v st st').
Proof.
  intros g0 c th el st v st' HY. apply yields_step in HY. destruct HY as (k & HY). cbn [genStep] in HY.
  apply constrained_inv in HY. destruct HY as (v0 & t0 & G0 & A0 & HY).
  destruct HY as [(-> & E & A1)|(t1 & A1 & HY)].
  { right. left. split; auto. exists st, t0. split; [exists k; auto|]. split; auto. apply after_refl. }
  cbn [applyConstr] in HY. apply bindM_ok in HY. destruct HY as (b & s0 & H & HY). pose proof (fwd_budget _ _ _ _ _ H) as AB.
  assert (A2 : after s0 st').
  { apply (fwd_of_inv _ (ifTry GE (generate GE k) (Z.to_nat b) [(c, (th, el))] g0 v0)) with (2 := HY). intros.
    apply inv_ifTry; auto using stable_after; intros; try (apply invG; auto; apply fwd_generate). }
  assert (A3 : after st s0) by (eapply after_trans; [exact A0|]; eapply after_trans; eauto).
  apply ifTry_single in HY; [|apply fwd_generate].
  destruct HY as [(u & U & SD)|[-> E]].
  - assert (FU : madeBy GE g0 u st st').
    { destruct U as [->|U].
      - exists st, t0. split; [exists k; auto|]. split; [apply after_refl|]. eapply after_trans; [exact A1|]. eapply after_trans; eauto.
      - apply prod_made in U. destruct U as (x & y & U & X & Y). exists x, y. split; auto. split; auto. eapply after_trans; eauto. }
    assert (W : forall ge, prod (generate GE k) ge v s0 st' -> madeBy GE ge v st st').
    { intros ge P. apply prod_made in P. destruct P as (x & y & P & X & Y). exists x, y. split; auto. split; auto. eapply after_trans; eauto. }
    right. right. unfold ifSide in SD.
    destruct SD as [(V & [[-> ->]|(ge & -> & P)])|(V & [[-> ->]|(ge & -> & P)])]; [left|left|right|right]; auto.
  - left. split; auto. eapply emitted_widen; [exact E|exact A3|apply after_refl].
Qed.
Lemma Q_made : forall n g st v st', Q n g -> madeBy GE g v st st' -> calm st st' -> valid mt fm rf n v.
Proof. intros n g st v st' HQ (a & b & Y & A & B) C. eapply HQ; [exact Y|]. eapply Hwide; eauto. Qed.

Lemma kid_sound : forall d c f s g s', supp d c -> parseNode PE f c s = Ok (Good g, s') -> pErrs s' = [] -> pDepth s + Z.of_nat d <= pxMaxDepth PE -> Q c g.
Proof. intros. eapply supported_sound; eauto. Qed.
Lemma kid_deep : forall d c, supp d c -> 1 <= Z.of_nat d.
Proof. intros d c Hc. destruct d; [destruct Hc|lia]. Qed.

Lemma body_clean : forall d f field rest o s t s', 
  (forall b m, o = Some b -> mergesTo PE [rest; b] m -> supp d m) ->
  parseIfBody PE (parseF PE f false) (merge PE f) field rest o s = Ok (t, s') -> pErrs s' = [] -> pDepth s + Z.of_nat d <= pxMaxDepth PE ->
  match o with None => t = None | Some b => exists m g, t = Some g /\ mergesTo PE [rest; b] m /\ Q m g end.
Proof.
  intros d f field rest [b|] s t s' HK H HE HD; cbn [parseIfBody] in H; [|apply pret_ok in H; tauto].
  apply pbind_ok in H. destruct H as (m & s1 & H1 & H). apply pbind_ok in H. destruct H as (r & s2 & H2 & H).
  assert (K2 : keeps PE s2 s').
  { revert H. destruct r; intros H; [apply pret_ok in H; destruct H as [_ ->]; apply keeps_refl|].
    revert H. match goal with |- ?m s2 = _ -> _ => assert (S : stable PE m) by stab end. apply S. }
  assert (E2 : pErrs s2 = []) by (eapply errs_before; eauto).
  assert (K1 : keeps PE s1 s2) by (eapply st_inScope; [|exact H2]; intros; apply st_parseF).
  assert (E1 : pErrs s1 = []) by (eapply errs_before; eauto).
  assert (M : mergesTo PE [rest; b] m) by (exists f, s, s1; auto).
  pose proof (HK b m eq_refl M) as SM.
  apply (scope_clean PE (supp d) Q (Z.of_nat d) (kid_sound d) (kid_deep d)) in H2; [|exact SM|exact E2|].
  - destruct H2 as (g & -> & HQ). apply pret_ok in H. destruct H as [-> _]. exists m, g. auto.
  - apply st_merge in H1. rewrite (kDepth _ _ _ H1). exact HD.
Qed.

Lemma valid_if : forall n c v, sIf n = Some c -> valid mt fm rf (withoutIf n) v ->
  (valid mt fm rf c v -> present (fun t => valid mt fm rf t v) (sThen n)) -> (~ valid mt fm rf c v -> present (fun t => valid mt fm rf t v) (sElse n)) ->
  valid mt fm rf n v.
Proof.
  intros n c v E V VT VE. unfold withoutIf in V. rewrite valid_eq in V. rewrite valid_eq.
  cbn [sType sLength sProperties sAdditionalProperties sPatternProperties sItems sContains sMinContains sMaxContains sPrefixItems sAdditionalItems sNot sAllOf sAnyOf sOneOf sIf sThen sElse sRef set_sIf set_sThen set_sElse set_sMergedIf] in V.
  change (okFlat mt fm (set_sIf None (set_sThen None (set_sElse None (set_sMergedIf [] n)))) v) with (okFlat mt fm n v) in V. rewrite E.
  destruct V as (V1 & V2 & V3 & V4 & V5 & V6 & V7 & _ & V9).
  exact (conj V1 (conj V2 (conj V3 (conj V4 (conj V5 (conj V6 (conj V7 (conj (conj VT VE) V9)))))))).
Qed.

Lemma if_sound : forall d n c f s g s', sRef n = None -> sAllOf n = None -> sAnyOf n = None -> sOneOf n = None -> sNot n = None ->
  sMergedNot n = [] -> sMergedIf n = [] -> sIf n = Some c ->
  (forall a b, calm a b -> ~ emitted EvIfFail a b) ->
  simple PE GE mt fm rf trying (supp d) (withoutIf n) ->
  (forall b, sThen n = Some b \/ sElse n = Some b -> canMerge [withoutIf n; b] /\ forall m, mergesTo PE [withoutIf n; b] m -> supp d m) ->
  (forall v, eValid GE c v = true <-> valid mt fm rf c v) ->
  (forall p, assoc (p ++ "_if_0") (pRes s) = None) ->
  stepF PE f n s = Ok (Good g, s') -> pErrs s' = [] -> pDepth s <= pDeep s -> pDepth s + Z.of_nat d <= pxMaxDepth PE -> Q n g.
Proof.
  intros d n c f s g s' R A AO OO N MN MI I HF HS HB HV HN H HE HD1 HD.
  unfold stepF, schemaStep in H. destruct (unsupported n); [apply bad_ok in H; tauto|]. rewrite R, A, OO, AO, N, MN, I, MI in H. cbn [is_some orb] in H.
  unfold parseIf in H. apply pbind_ok in H. destruct H as (a & s0 & H0 & H). apply pget_ok in H0. destruct H0 as [-> ->].
  rewrite MI, I in H. cbn [app] in H. change (set_sIf None (set_sThen None (set_sElse None (set_sMergedIf [] n)))) with (withoutIf n) in H.
  apply pbind_ok in H. destruct H as (r & s1 & H1 & H). destruct r as [g0|w]; [|apply bad_ok in H; tauto].
  pose proof (st_parseF PE _ _ _ _ _ _ H1) as K1. destruct f as [|f]; [discriminate H1|]. rewrite step_of in H1.
  apply pbind_ok in H. destruct H as (cs & s3 & H2 & H). cbn [compileIfs] in H2.
  apply pbind_ok in H2. destruct H2 as (k & s4 & H3 & H2).
  assert (KI : keeps PE s1 s4) by (eapply st_compileIf; [| |exact H3]; [intros; apply st_parseF|intros; apply st_merge]).
  assert (KC : keeps PE s3 s') by (destruct cs; [revert H; match goal with |- ?m s3 = _ -> _ => assert (S : stable PE m) by stab end; apply S|apply pret_ok in H; destruct H as [_ ->]; apply keeps_refl]).
  assert (E3 : pErrs s3 = []) by (eapply errs_before; eauto).
  destruct k as [k|w].
  2:{ exfalso. apply pbind_ok in H2. destruct H2 as (u & s5 & H4 & H2). apply pret_ok in H2. destruct H2 as [_ ->].
      unfold addErrSub in H4. apply pmod_ok in H4. subst s5. discriminate E3. }
  apply pbind_ok in H2. destruct H2 as (ks & s5 & H4 & H2). apply pret_ok in H4. destruct H4 as [-> ->]. apply pret_ok in H2. destruct H2 as [-> ->].
  apply good_ok in H. destruct H as [-> ->]. clear KC E3.
  assert (E1 : pErrs s1 = []) by (eapply errs_before; eauto).
  pose proof (td_simple PE f (supp d) ltac:(intros c0 Hc; apply (td_supported PE GE mt fm rf trying d c0 f Hc)) GE mt fm rf trying (withoutIf n) HS _ _ _ H1 E1) as FR.
  assert (Q0 : Q (withoutIf n) g0) by (eapply simple_sound; eauto).
  unfold compileIf, newIf in H3. cbn [ifIf ifThen ifElse] in H3. rewrite I in H3.
  assert (X : exists th el, k = (c, (th, el)) /\
     match sThen n with None => th = None | Some b => exists m g, th = Some g /\ mergesTo PE [withoutIf n; b] m /\ Q m g end /\
     match sElse n with None => el = None | Some b => exists m g, el = Some g /\ mergesTo PE [withoutIf n; b] m /\ Q m g end).
  { assert (Y : (let* s := pget in
          let* k := compileNode PE c (pPath s ++ "/" ++ "/if/" ++ itoa 0) in
          match k with
          | Bad e => bad e
          | Good eff =>
              let* t := parseIfBody PE (parseF PE (S f) false) (merge PE (S f)) "/then" (withoutIf n) (sThen n) in
              let* e := parseIfBody PE (parseF PE (S f) false) (merge PE (S f)) "/else" (withoutIf n) (sElse n) in
              good (eff, (t, e))
          end) s1 = Ok (Good k, s4)).
    { destruct (sThen n), (sElse n); try exact H3. apply bad_ok in H3. destruct H3. }
    clear H3. apply pbind_ok in Y. destruct Y as (x & y & Y0 & Y). apply pget_ok in Y0. destruct Y0 as [-> ->].
    apply pbind_ok in Y. destruct Y as (e & t1 & Y1 & Y). destruct e as [eff|]; [|apply bad_ok in Y; destruct Y].
    pose proof (st_compile PE _ _ _ _ _ Y1) as C1.
    apply pbind_ok in Y. destruct Y as (th & t2 & Y2 & Y). apply pbind_ok in Y. destruct Y as (el & t3 & Y3 & Y). apply good_ok in Y. destruct Y as [-> ->].
    assert (C2 : keeps PE t1 t2) by (eapply st_parseIfBody; [| |exact Y2]; [intros; apply st_parseF|intros; apply st_merge]).
    assert (C3 : keeps PE t2 t3) by (eapply st_parseIfBody; [| |exact Y3]; [intros; apply st_parseF|intros; apply st_merge]).
    assert (F2 : pErrs t2 = []) by (eapply errs_before; eauto).
    assert (eff = c) as ->.
    { unfold compileNode in Y1. set (name := scope s1 ++ _) in Y1.
      assert (NN : assoc name (pRes s1) = None).
      { destruct (assoc name (pRes s1)) eqn:AS; [|reflexivity]. exfalso.
        assert (EN : exists p, name = p ++ "_if_0").
        { exists (scope s1 ++ normalisePath (pPath s1 ++ "/" ++ pPath s1 ++ "/")). unfold name. rewrite app_assoc_s. f_equal.
          rewrite !norm_app. rewrite !app_assoc_s. reflexivity. }
        destruct EN as [p EN]. destruct (FR name) as [X|X]; [rewrite AS; discriminate|rewrite EN in X; apply X; apply HN|].
        rewrite EN in X. change "_if_0" with ("_if_" ++ "0") in X. rewrite <- app_assoc_s in X. revert X. apply ends_digit; [discriminate|reflexivity]. }
      rewrite NN in Y1. injection Y1 as Y1 _. destruct (pxCompile PE c); congruence. }
    exists th, el. split; [reflexivity|].
    split; eapply body_clean; [| exact Y2| exact F2| | | exact Y3| exact HE |].
    - intros b m Eb M. apply (HB b); auto.
    - rewrite (kDepth _ _ _ C1), (kDepth _ _ _ K1). exact HD.
    - intros b m Eb M. apply (HB b); auto.
    - rewrite (kDepth _ _ _ C2), (kDepth _ _ _ C1), (kDepth _ _ _ K1). exact HD. }
  destruct X as (th & el & -> & XT & XE).
  intros st v st' HY NC. apply cif_values in HY. destruct HY as [[_ F]|[[_ U]|HY]]; [elim (HF _ _ NC F)|elim (Hun _ _ NC U)|].
  assert (SIDE : forall o t, (forall b, o = Some b -> sThen n = Some b \/ sElse n = Some b) ->
     match o with None => t = None | Some b => exists m g, t = Some g /\ mergesTo PE [withoutIf n; b] m /\ Q m g end ->
     madeBy GE (get_or t g0) v st st' -> valid mt fm rf (withoutIf n) v /\ present (fun b => valid mt fm rf b v) o).
  { intros [b|] t Ho Ht MB; cbn [present].
    - destruct Ht as (m & g & -> & M & QM). cbn [get_or] in MB. pose proof (Q_made _ _ _ _ _ QM MB NC) as V.
      destruct (HB b (Ho b eq_refl)) as [CM _]. pose proof (merges_implies PE mt fm rf _ _ v M CM V) as W.
      split; apply W; cbn; auto.
    - subst t. cbn [get_or] in MB. split; [|exact Logic.I]. eapply Q_made; eauto. }
  destruct HY as [[V MB]|[V MB]].
  - destruct (SIDE (sThen n) th) as [V1 V2]; auto. apply (valid_if n c v I V1); [auto|]. intros NV. elim NV. apply HV. exact V.
  - destruct (SIDE (sElse n) el) as [V1 V2]; auto. apply (valid_if n c v I V1); [|auto]. intros NV. apply HV in NV. congruence.
Qed.

(* ------------------------------------------------------------------ oneOf *)
(* the branches are compiled as they are *)
Lemma compile_clean : forall l i s es s', 0 <= i -> compileBranches PE i l s = Ok (es, s') -> pErrs s' = [] ->
  (forall j, i <= j -> assoc (scope s ++ normalisePath (pPath s ++ "/" ++ "oneOf/" ++ itoa j)) (pRes s) = None) -> es = l.
Proof.
  induction l as [|n l IH]; intros i s es s' Hi H HE HN; cbn [compileBranches] in H; [apply pret_ok in H; tauto|].
  apply pbind_ok in H. destruct H as (c & s1 & H1 & H).
  unfold compileNode in H1. rewrite (HN i) in H1 by lia.
  remember (scope s ++ normalisePath (pPath s ++ "/" ++ "oneOf/" ++ itoa i)) as name eqn:EN. injection H1 as Hc Hs.
  destruct c as [e|w].
  2:{ exfalso. apply pbind_ok in H. destruct H as (u & s2 & H2 & H). unfold addErrSub in H2. apply pmod_ok in H2.
      apply (st_compileBranches PE) in H. apply errs_before in H; auto. subst s2. discriminate H. }
  assert (e = n) by (destruct (pxCompile PE n); congruence). subst e.
  apply pbind_ok in H. destruct H as (es1 & s2 & H2 & H). apply pret_ok in H. destruct H as [-> ->]. f_equal.
  eapply IH; [|exact H2|exact HE|]; [lia|]. intros j Hj. subst s1. cbn [scope pResolving pParsing pPath pRes withRes].
  change (scope (withRes (massign name n (pRes s)) s)) with (scope s).
  rewrite assoc_massign_other; [apply HN; lia|].
  intros X. rewrite EN in X. apply app_cancel in X. rewrite !norm_app in X. repeat apply app_cancel in X.
  rewrite !norm_digits in X by (apply itoa_digits; lia). apply itoa_inj in X. lia.
Qed.
Lemma each_clean : forall f l s ms s', mergeEach (merge PE f) l s = Ok (ms, s') -> pErrs s' = [] -> Forall2 (fun b m => mergesTo PE [b] m) l ms.
Proof.
  induction l as [|n l IH]; intros s ms s' H HE; cbn [mergeEach] in H.
  - apply pret_ok in H. destruct H as [-> _]. constructor.
  - apply pbind_ok in H. destruct H as (m & s0 & H0 & H). apply pbind_ok in H. destruct H as (ms0 & s1 & H1 & H).
    apply pret_ok in H. destruct H as [-> ->]. constructor; [|eapply IH; eauto].
    exists f, s, s0. split; [exact H0|]. eapply errs_before; [|exact HE]. eapply st_mergeEach; [|exact H1]. intros. apply st_merge.
Qed.
Lemma filter_exactly : forall A B (p : B -> bool) (P : A -> Prop) l ms, Forall2 (fun b m => p m = true <-> P b) l ms ->
  List.length (filter p ms) = 1%nat -> SpecSchema.exactlyOne P l.
Proof.
  intros A B p P l ms F. induction F as [|b m l ms H F IH]; intros L; [discriminate L|]. cbn [filter] in L. cbn [SpecSchema.exactlyOne].
  destruct (p m) eqn:E.
  - left. split; [apply H; reflexivity|]. injection L as L. clear - F L. induction F as [|b m l ms H F IH]; [exact Logic.I|].
    cbn [filter] in L. destruct (p m) eqn:E; [discriminate L|]. cbn [every]. split; [|apply IH; exact L]. intros X. apply H in X. congruence.
  - right. split; [|apply IH; exact L]. intros X. apply H in X. congruence.
Qed.
Lemma valid_ones : forall n v l, sOneOf n = Some l -> valid mt fm rf (set_sOneOf None n) v -> SpecSchema.exactlyOne (fun b => valid mt fm rf b v) l -> valid mt fm rf n v.
Proof.
  intros n v b E V Vb. rewrite valid_eq in V. rewrite valid_eq.
  cbn [sType sLength sProperties sAdditionalProperties sPatternProperties sItems sContains sMinContains sMaxContains sPrefixItems sAdditionalItems sNot sAllOf sAnyOf sOneOf sIf sThen sElse sRef set_sOneOf] in V.
  change (okFlat mt fm (set_sOneOf None n) v) with (okFlat mt fm n v) in V. rewrite E.
  destruct V as (V1 & V2 & V3 & V4 & V5 & _ & V6). exact (conj V1 (conj V2 (conj V3 (conj V4 (conj V5 (conj Vb V6)))))).
Qed.
(* the generators put together for oneOf *)
Lemma cone_values : forall gs es st v st', yields GE (GConstrained (GComb gs) [COneOf es]) st v st' ->
  (v = JStr oneOfFailure /\ emitted EvOneOfFail st st') \/ emitted EvCutoff st st' \/ emitted EvUnchecked st st' \/
  ((exists g, In g gs /\ madeBy GE g v st st') /\ List.length (filter (fun e => eValid GE e v) es) = 1%nat).
Proof.
  intros gs es st v st' HY. apply yields_step in HY. destruct HY as (k & HY). cbn [genStep] in HY.
  apply constrained_inv in HY. destruct HY as (v0 & t0 & G0 & A0 & HY).
  assert (P0 : prod (generate GE k) (GComb gs) v0 st t0) by (exists st, t0; split; auto; split; apply after_refl).
  assert (FR : forall w p q, (w = JNull /\ emitted EvCutoff p q) \/ (exists g', In g' gs /\ madeBy GE g' w p q) -> after st p -> after q st' ->
     emitted EvCutoff st st' \/ exists g', In g' gs /\ madeBy GE g' w st st').
  { intros w p q [[-> E]|(g' & I & M)] P Q; [left; eapply emitted_widen; eauto|right]. exists g'. split; auto.
    destruct M as (u & t & M & U & T). exists u, t. split; auto. split; eapply after_trans; eauto. }
  destruct HY as [(-> & E & A1)|(t1 & A1 & HY)]; [right; right; left; exact E|].
  cbn [applyConstr] in HY. apply bindM_ok in HY. destruct HY as (a & s0 & H & HY). pose proof (fwd_budget _ _ _ _ _ H) as AB.
  assert (A2 : after s0 st').
  { apply (fwd_of_inv _ (oneOfTry GE (generate GE k) (Z.to_nat a) es (GComb gs) v0)) with (2 := HY). intros.
    apply inv_oneOfTry; auto using stable_after. intros. apply invG; auto. apply fwd_generate. }
  apply oneOfTry_ok in HY; [|apply fwd_generate].
  destruct HY as [[V PP]|[-> E]].
  - apply Nat.eqb_eq in V. right.
    assert (X : emitted EvCutoff st st' \/ exists g', In g' gs /\ madeBy GE g' v st st').
    { destruct PP as [->|P].
      - apply comb_prod in P0. eapply FR; eauto. apply after_refl. eapply after_trans; [exact A1|]. eapply after_trans; eauto.
      - apply comb_prod in P. eapply FR; eauto; [|apply after_refl]. eapply after_trans; [exact A0|]. eapply after_trans; eauto. }
    destruct X as [X|X]; auto.
  - left. split; auto. eapply emitted_widen; [exact E| |apply after_refl]. eapply after_trans; [exact A0|]. eapply after_trans; eauto.
Qed.

Lemma oneOf_sound : forall d n l f s g s', sRef n = None -> sAllOf n = None -> sAnyOf n = None -> canMerge [n] ->
  sOneOf n = Some l -> (2 <= List.length l)%nat ->
  (forall a b, calm a b -> ~ emitted EvOneOfFail a b) ->
  (forall b base, In b l -> mergesTo PE [n] base -> canMerge [set_sOneOf None base; b] /\ forall m, mergesTo PE [set_sOneOf None base; b] m -> supp d m) ->
  (forall b m v, In b l -> mergesTo PE [b] m -> (eValid GE m v = true <-> valid mt fm rf b v)) ->
  (forall p i, 0 <= i -> assoc (p ++ "_oneOf_" ++ itoa i) (pRes s) = None) ->
  stepF PE f n s = Ok (Good g, s') -> pErrs s' = [] -> pDepth s + Z.of_nat d <= pxMaxDepth PE -> Q n g.
Proof.
  intros d n l f s g s' HR HA HY1 HM HL LEN HF HK HV HN H HE HD.
  unfold stepF, schemaStep in H. destruct (unsupported n); [apply bad_ok in H; tauto|]. rewrite HR, HA, HL in H. cbn [is_some orb] in H.
  unfold parseCombination in H. cbv zeta in H. rewrite HL in H. cbn [get_or] in H.
  destruct l as [|x [|y r]]; [cbn in LEN; lia|cbn in LEN; lia|]. revert H. clear LEN. set (l := x :: y :: r) in *. intros H.
  apply pbind_ok in H. destruct H as (gs & s1 & H1 & H).
  apply pbind_ok in H. destruct H as (ms & s2 & H2 & H). apply pbind_ok in H. destruct H as (es & s3 & H3 & H). apply good_ok in H. destruct H as [-> ->].
  assert (K3 : keeps PE s2 s3) by (eapply st_compileBranches; exact H3).
  assert (K2 : keeps PE s1 s2) by (eapply st_mergeEach; [|exact H2]; intros; apply st_merge).
  assert (K1 : keeps PE s s1) by (eapply st_parseBranches; [| |exact H1]; intros; [apply st_parseF|apply st_merge]).
  assert (E2 : pErrs s2 = []) by (eapply errs_before; eauto). assert (E1 : pErrs s1 = []) by (eapply errs_before; eauto).
  assert (KK : forall b base, In b l -> mergesTo PE [n] base -> forall m, mergesTo PE [set_sOneOf None base; b] m -> supp d m) by (intros b base I B; apply (HK b base I B)).
  pose proof (td_parseBranches PE f (supp d) ltac:(intros c0 Hc; apply (td_supported PE GE mt fm rf trying d c0 f Hc)) true l 0 n KK _ _ _ H1 E1) as FR.
  assert (Z2 : pRes s2 = pRes s1) by (eapply si_mergeEach; exact H2).
  assert (es = ms) as ->.
  { eapply compile_clean; [|exact H3|exact HE|]; [lia|]. intros j Hj. rewrite Z2.
    set (name := scope s2 ++ _). destruct (assoc name (pRes s1)) eqn:AS; [|reflexivity]. exfalso.
    assert (EN : name = (scope s2 ++ normalisePath (pPath s2)) ++ "_oneOf_" ++ itoa j).
    { unfold name. rewrite !norm_app. rewrite (norm_digits (itoa j)) by (apply itoa_digits; lia). rewrite !app_assoc_s. reflexivity. }
    destruct (FR name) as [X|X]; [rewrite AS; discriminate|rewrite EN in X; apply X; apply HN; lia|].
    rewrite EN in X. rewrite <- app_assoc_s in X. revert X. apply ends_digit; apply itoa_digits; lia. }
  apply each_clean in H2; [|exact E2].
  eapply (branches_clean PE (supp d) Q (Z.of_nat d) (kid_sound d) (kid_deep d)) in H1; [|intros sub base m I B M; eapply KK; eauto|exact E1|exact HD].
  intros st v st' HY NC. apply cone_values in HY.
  destruct HY as [[_ F]|[C|[U|[(g0 & I & MB) L]]]]; [elim (HF _ _ NC F)|elim (Hcut _ _ NC C)|elim (Hun _ _ NC U)|].
  destruct (Forall2_In_r _ _ _ _ _ _ H1 I) as (b & Ib & base & m & B & M & HQ0).
  pose proof (Q_made _ _ _ _ _ HQ0 MB NC) as V. destruct (HK b base Ib B) as [C _]. pose proof (merges_implies PE mt fm rf _ _ v M C V) as W.
  pose proof (W _ (or_introl eq_refl)) as W1.
  destruct (merges_one PE _ _ B HR HA) as [_ O2]. rewrite HL in O2. cbn [get_or] in O2.
  apply (merges_implies PE mt fm rf [n] base v B HM); [|left; reflexivity].
  destruct (sOneOf base) as [q|] eqn:EB; cbn [get_or] in O2; [|discriminate O2]. subst q.
  apply (valid_ones base v l EB W1). eapply filter_exactly; [|exact L].
  assert (G : forall l' ms', (forall b, In b l' -> In b l) -> Forall2 (fun b m => mergesTo PE [b] m) l' ms' ->
     Forall2 (fun b m => eValid GE m v = true <-> valid mt fm rf b v) l' ms'); [|apply G; auto].
  clear - HV. intros l' ms' S F. induction F; constructor; [apply HV; [apply S; left; reflexivity|assumption]|].
  apply IHF. intros b Hb. apply S. right. exact Hb.
Qed.
End Root.

(* ------------------------------------------------------------------ whole documents *)
Lemma node_open : forall PE fuel n s g s', sConstraints n = None -> parseNode PE fuel n s = Ok (Good g, s') -> pErrs s' = [] ->
  exists f s1 s2, stepF PE f n s1 = Ok (Good g, s2) /\ pErrs s2 = [] /\ pRes s1 = pRes s /\ pDepth s1 = pDepth s + 1 /\ pDepth s1 <= pDeep s1.
Proof.
  intros PE fuel n s g s' C H HE. destruct fuel as [|f]; [discriminate H|]. unfold parseNode in H. cbn [parseF] in H. unfold nodeStep in H.
  apply pbind_ok in H. destruct H as (s0 & s1 & H1 & H). apply pget_ok in H1. destruct H1 as [-> ->].
  apply pbind_ok in H. destruct H as (u & s2 & H2 & H). apply pmod_ok in H2.
  apply pbind_ok in H. destruct H as (r1 & s3 & H3 & H).
  apply pbind_ok in H. destruct H as (s4 & s5 & H4 & H). apply pget_ok in H4. destruct H4 as [-> ->].
  apply pbind_ok in H. destruct H as (u1 & s6 & H6 & H). apply pmod_ok in H6. apply pret_ok in H. destruct H as [<- ->].
  assert (E3 : pErrs s3 = []) by (subst s6; exact HE).
  destruct (_ <? _); [apply bad_ok in H3; destruct H3|].
  apply pbind_ok in H3. destruct H3 as (u3 & t1 & T1 & H3). apply pmod_ok in T1.
  apply pbind_ok in H3. destruct H3 as (r3 & t2 & T2 & H3).
  assert (E2 : pErrs t2 = []).
  { revert H3. match goal with |- ?m t2 = _ -> _ => assert (S : stable PE m) by stab end. intros X. eapply errs_before; [eapply S; exact X|exact E3]. }
  destruct f as [|f]; [discriminate T2|]. rewrite step_of in T2.
  assert (r3 = Good g) as ->.
  { apply pbind_ok in H3. destruct H3 as (x & q & X & H3). apply pbind_ok in H3. destruct H3 as (x1 & q1 & X1 & H3).
    apply pbind_ok in H3. destruct H3 as (x2 & q2 & X2 & H3). rewrite C in H3. apply pret_ok in H3. symmetry. apply H3. }
  exists f, t1, t2. split; [exact T2|]. split; [exact E2|]. subst t1 s2. cbn [pRes withDeep withDepth pDepth pDeep]. split; [reflexivity|]. split; [reflexivity|lia].
Qed.
Lemma td_defs : forall PE GE mt fm rf trying fuel path l, (forall k c, In (k, c) l -> exists e, supported PE GE mt fm rf trying e c) -> tidy (parseDefs PE fuel path l).
Proof.
  intros PE GE mt fm rf trying fuel path. induction l as [|[k n] l IH]; intros K; cbn [parseDefs]; [apply td_ret|].
  apply (td_bind PE).
  - apply (td_inScope PE fuel (fun c => exists e, supported PE GE mt fm rf trying e c)); [|eapply K; left; reflexivity].
    intros c [e Hc]. exact (td_supported PE GE mt fm rf trying e c fuel Hc).
  - intros a. apply st_bind; [apply st_parseDefs|intros; apply st_ret].
  - intros s a s' _ _. apply (td_bind PE); [apply IH; intros; eapply K; right; eauto|intros; apply st_ret|intros; apply td_ret].
Qed.

(* up to the root node *)
Lemma doc_open : forall PE GE mt fm rf trying fuel parsing rootId n g s', sConstraints n = None -> definitions PE GE mt fm rf trying n ->
  parseDoc PE fuel parsing rootId n = Ok (Good g, s') -> pErrs s' = [] ->
  exists f s1 s2, stepF PE f n s1 = Ok (Good g, s2) /\ pErrs s2 = [] /\ pDepth s1 = 1 /\ pDepth s1 <= pDeep s1 /\
    forall name, assoc name (pRes s1) <> None -> name = parsing \/ listing name.
Proof.
  intros PE GE mt fm rf trying fuel parsing rootId n g s' C DF H HE.
  unfold parseDoc in H. apply pbind_ok in H. destruct H as (r & s1 & H1 & H). apply pbind_ok in H. destruct H as ([] & s2 & H2 & H).
  apply pret_ok in H. destruct H as [<- ->]. apply P_Parse.drain_deep in H2. destruct H2 as [_ [l Hl]].
  assert (E1 : pErrs s1 = []) by (rewrite HE in Hl; symmetry in Hl; apply app_eq_nil in Hl; tauto).
  unfold parseRoot in H1. apply pbind_ok in H1. destruct H1 as (u1 & t1 & K1 & H1). apply pbind_ok in H1. destruct H1 as (u2 & t2 & K2 & H1).
  pose proof (st_parseNode PE _ _ _ _ _ H1) as K3. assert (E2 : pErrs t2 = []) by (eapply errs_before; eauto).
  pose proof (st_parseDefs PE _ _ _ _ _ _ K2) as S2. assert (E3 : pErrs t1 = []) by (eapply errs_before; eauto).
  pose proof (st_parseDefs PE _ _ _ _ _ _ K1) as S1.
  assert (F1 : fresh (initP PE parsing rootId n) t1).
  { eapply (td_defs PE GE mt fm rf trying); [|exact K1|exact E3]. intros k c I. eapply DF; eauto. }
  assert (F2 : fresh t1 t2).
  { eapply (td_defs PE GE mt fm rf trying); [|exact K2|exact E2]. intros k c I. eapply DF; eauto. }
  apply node_open in H1; auto. destruct H1 as (f & q1 & q2 & X & EX & RX & DX & DD).
  exists f, q1, q2. split; [exact X|]. split; [exact EX|]. split; [rewrite DX, (kDepth _ _ _ S2), (kDepth _ _ _ S1); reflexivity|]. split; [exact DD|].
  intros name A. rewrite RX in A. destruct (F2 _ A) as [B|B]; [|right; exact B]. destruct (F1 _ B) as [D|D]; [|right; exact D]. left.
  cbn [initP pRes assoc] in D. destruct (String.eqb_spec name parsing) as [->|N]; [reflexivity|]. congruence.
Qed.
