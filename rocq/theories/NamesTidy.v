(* A schema of the fragment of SpecFragment.v registers only names for its enum and const keywords. *)
From Coq Require Import ZArith List String Ascii Bool Lia.
From Flocq Require Import BinarySingleNaN.
From Verif Require Import Base Float64 Json Schema Util Options Number Gen PState PFacts RefPath Merge NotMerge Parse ParseKeep Names.
From Verif Require Import MergeFacts MergeProps MergeValid SpecMerge SpecNegate SpecNumber SpecSchema SpecRun SpecParse ParseShape SpecFragment ValueProps Sound.
From Verif Require MergeFlat NotSound.
Import ListNotations.
Open Scope string_scope.
Open Scope Z_scope.

Section Level.
Variable E : penv.
Variable f : nat.
Notation recN := (parseF E f false).
Notation mrg := (merge E f).
Variable kid : schemaNode -> Prop.
Hypothesis HK : forall c, kid c -> tidy (recN c).

Let sN : forall n, stable E (recN n) := st_parseF E f false.
Let sM : forall l, stable E (mrg l) := st_merge E f.
Hint Resolve sN sM st_parseF : st.
Ltac std := first [ apply st_parseProps | apply st_parsePatterns | apply st_parseTuple | apply st_parseContains | apply st_optScope | apply st_parseTypes | apply st_parseBranches | idtac ].
Ltac stz := repeat first
  [ progress intros | solve [auto with st] | apply st_bind | apply st_inScope | apply st_parseProps | apply st_parsePatterns | apply st_parseTuple
  | apply st_parseContains | apply st_optScope | apply st_parseTypes | apply st_parseBranches | apply st_compileBranches | apply st_mergeEach
  | match goal with
    | |- stable _ (match ?x with _ => _ end) => destruct x
    | |- stable _ (if ?x then _ else _) => destruct x
    end ].
Lemma td_ret : forall A (a : A), tidy (pret a). Proof. intros. apply td_silent. auto with si. Qed.
Lemma td_good : forall A (a : A), tidy (good a). Proof. intros. apply td_silent. auto with si. Qed.
Lemma td_bad : forall A e, tidy (@bad A e). Proof. intros. apply td_silent. auto with si. Qed.
Hint Resolve td_ret td_good td_bad : td.

Lemma td_inScope : forall sc c srcs, kid c -> tidy (inScope E recN sc c srcs).
Proof.
  intros sc c srcs K s b s' H HE. unfold inScope in H.
  apply pbind_ok in H. destruct H as (u & s1 & H1 & H). apply pmod_ok in H1.
  apply pbind_ok in H. destruct H as (k & s2 & H2 & H). apply si_pushSources in H2.
  apply pbind_ok in H. destruct H as (r & s3 & H3 & H).
  apply pbind_ok in H. destruct H as (u' & s4 & H4 & H). pose proof (si_popMany _ _ _ _ H4) as H4'. apply popMany_ok in H4.
  apply pbind_ok in H. destruct H as (u'' & s5 & H5 & H). apply pmod_ok in H5.
  apply pret_ok in H. destruct H as [_ ->].
  assert (E3 : pErrs s3 = []) by (subst s5 s4; exact HE).
  eapply fresh_trans; [|eapply fresh_trans; [exact (HK c K _ _ _ H3 E3)|]]; apply fresh_same; subst s1; [exact H2|]. subst s5. exact H4'.
Qed.
Ltac tid := repeat first
  [ progress intros | solve [auto with td] | apply (td_bind E); [|solve [stz]|]
  | match goal with
    | |- tidy (match ?x with _ => _ end) => destruct x eqn:?
    | |- tidy (if ?x then _ else _) => destruct x eqn:?
    end ].
Lemma td_parseProps : forall l, (forall k c, In (k, c) l -> kid c) -> tidy (parseProps E recN l).
Proof.
  induction l as [|[k n] l IH]; intros K; [cbn; tid|]. cbn [parseProps].
  apply (td_bind E); [apply td_inScope; eapply K; left; reflexivity|stz|]. intros.
  apply (td_bind E); [apply IH; intros; eapply K; right; eauto|stz|tid].
Qed.
Lemma td_parsePatterns : forall l, (forall k c, In (k, c) l -> kid c) -> tidy (parsePatterns E recN l).
Proof.
  induction l as [|[k n] l IH]; intros K; [cbn; tid|]. cbn [parsePatterns].
  apply (td_bind E); [apply td_inScope; eapply K; left; reflexivity|stz|]. intros.
  apply (td_bind E); [destruct (pxPropRegexOk E k); apply td_silent; auto with si|stz|]. intros.
  apply (td_bind E); [apply IH; intros; eapply K; right; eauto|stz|tid].
Qed.
Lemma td_optScope : forall sc o, (forall c, o = Some c -> kid c) -> tidy (optScope E recN sc o).
Proof.
  intros sc [c|] K; cbn [optScope]; [|tid]. apply (td_bind E); [apply td_inScope; auto|stz|tid].
Qed.
Lemma td_parseTuple : forall l i, (forall c, In c l -> kid c) -> tidy (parseTuple E recN i l).
Proof.
  induction l as [|n l IH]; intros i K; cbn [parseTuple]; [tid|].
  apply (td_bind E); [apply td_inScope; apply K; left; reflexivity|stz|]. intros. destruct a; [|tid].
  apply (td_bind E); [apply IH; intros; apply K; right; auto|stz|tid].
Qed.

Variable GE : env.
Variable mt fm : string -> string -> Prop.
Variable rf : string -> json -> Prop.
Variable trying : bool.
Lemma td_parseObject : forall n, keyed GE mt kid n -> tidy (parseObject E recN n).
Proof.
  intros n (_ & _ & _ & _ & _ & _ & _ & KK). unfold parseObject.
  repeat match goal with |- tidy (if ?b then bad _ else _) => destruct b; [solve [auto with td]|] end.
  apply (td_bind E); [apply td_parsePatterns; intros; apply KK; eauto|stz|]. intros.
  apply (td_bind E); [apply td_parseProps; intros; apply KK; eauto|stz|]. intros.
  apply (td_bind E); [|stz|tid].
  assert (AD : forall c, (if nofFalse (get_or (sAdditionalProperties n) (mkNOF None false)) then None else nofSchema (get_or (sAdditionalProperties n) (mkNOF None false))) = Some c -> kid c).
  { intros c X. apply KK. right. right. unfold addlNode. destruct (sAdditionalProperties n); [exact X|discriminate X]. }
  destruct (if nofFalse _ then None else _) as [c|]; [|tid]. apply (td_bind E); [apply td_inScope; auto|stz|tid].
Qed.
Lemma td_parseContains : forall n, sequential E GE mt fm rf trying kid n -> tidy (parseContains E recN mrg n).
Proof.
  intros n (_ & _ & _ & _ & KC & _). unfold parseContains. destruct (sContains n) as [c|] eqn:EC; [|tid].
  destruct (KC c eq_refl) as [NF KM]. unfold itemsNode, itemsFalse in *.
  apply (td_bind E); [|stz|].
  { destruct (sItems n) as [dt|]; [destruct (itNode dt)|]; apply td_silent; sil. }
  intros s c' s' H HE. apply td_optScope. intros x X. injection X as <-.
  destruct (sItems n) as [dt|].
  - rewrite NF in KM. destruct (itNode dt) as [i|].
    + destruct KM as [_ KM]. apply pbind_ok in H. destruct H as (m & s1 & H1 & H). apply pret_ok in H. destruct H as [-> ->].
      destruct (KM m ltac:(exists f, s, s1; auto)) as [NC Km]. rewrite (set_contains m NC). exact Km.
    + apply pret_ok in H. destruct H as [-> _]. exact KM.
  - apply pret_ok in H. destruct H as [-> _]. exact KM.
Qed.
Lemma td_parseArray : forall n, sequential E GE mt fm rf trying kid n -> tidy (parseArray E recN mrg n).
Proof.
  intros n HS. pose proof HS as (A1 & A2 & _ & _ & _ & _ & _ & A8 & _ & KK). unfold parseArray. rewrite A1, A2.
  repeat match goal with |- tidy (if ?b then bad _ else _) => destruct b; [solve [auto with td]|] end. cbv zeta.
  apply (td_bind E); [apply td_optScope; intros c X; apply KK; right; exact X|stz|]. intros s1 [it|] s2 _ _; [|tid].
  apply (td_bind E); [apply td_optScope; intros c X; discriminate X|stz|]. intros s3 [ad|] s4 _ _; [|tid].
  apply (td_bind E); [apply td_parseContains; exact HS|stz|]. intros s5 [ct|] s6 _ _; [|tid].
  apply (td_bind E); [apply td_parseTuple|stz|].
  { intros c X. apply KK. left. unfold tupleNodes in X. destruct (sPrefixItems n) as [[|y l]|]; [|exact X|].
    - destruct (sItems n) as [dt|]; [rewrite (A8 dt eq_refl) in X|]; destruct X.
    - destruct (sItems n) as [dt|]; [rewrite (A8 dt eq_refl) in X|]; destruct X. }
  intros s7 [tu|] s8 _ _; [|tid].
  apply (td_bind E); [apply td_optScope; intros c X; discriminate X|stz|tid].
Qed.
Lemma td_parseType : forall t n, usesOnly E GE mt fm rf trying kid t n -> tidy (parseType E recN mrg t n).
Proof.
  intros t n (_ & _ & _ & _ & TA & TO). unfold parseType.
  destruct (String.eqb_spec t "object"); [apply td_parseObject; auto|].
  destruct (String.eqb_spec t "array"); [apply td_parseArray; auto|].
  apply td_silent. unfold parseNum, parseString. sil.
Qed.
Lemma td_parseTypes : forall ts n, (forall t, In t ts -> usesOnly E GE mt fm rf trying kid t n) -> tidy (parseTypes E recN mrg ts n).
Proof.
  induction ts as [|t ts IH]; intros n K; cbn [parseTypes]; [tid|].
  apply (td_bind E); [apply td_parseType; apply K; left; reflexivity|stz|]. intros.
  apply (td_bind E); [apply IH; intros; apply K; right; auto|stz|tid].
Qed.
Lemma td_parseBranches : forall one l i n,
  (forall b base, In b l -> mergesTo E [n] base -> forall m, mergesTo E [if one : bool then set_sOneOf None base else set_sAnyOf None base; b] m -> kid m) ->
  tidy (parseBranches E recN mrg one i n l).
Proof.
  induction l as [|b l IH]; intros i n K; cbn [parseBranches]; [tid|].
  apply (td_bind E); [apply td_silent; auto with si|stz|]. intros s1 base s2 H1 E1. cbv zeta.
  apply (td_bind E); [apply td_silent; auto with si|stz|]. intros s3 m s4 H3 E3.
  apply (td_bind E); [apply td_inScope|stz|].
  { apply (K b base (or_introl eq_refl)); [exists f, s1, s2; auto|exists f, s3, s4; auto]. }
  intros s5 g s6 _ _. apply (td_bind E); [apply td_silent; sil|stz|]. intros.
  apply (td_bind E); [apply IH; intros; eapply K; [right|..]; eauto|stz|tid].
Qed.
Lemma td_parseAllOf : forall n l, (forall m, mergesTo E (l ++ [set_sAllOf None n])%list m -> kid m) -> tidy (parseAllOf E recN mrg n l).
Proof.
  intros n l K. unfold parseAllOf. cbv zeta. apply (td_bind E); [apply td_silent; auto with si|stz|]. intros s1 m s2 H1 E1.
  apply (td_bind E); [apply td_inScope|stz|tid]. apply K. exists f, s1, s2. auto.
Qed.
Lemma td_parseEnum : forall n, tidy (parseEnum E n).
Proof. intros n. unfold parseEnum. apply (td_bind E); [apply td_compile; auto|stz|tid]. Qed.
Lemma td_parseConst : forall n v, tidy (parseConst E n v).
Proof. intros n v. unfold parseConst. apply (td_bind E); [apply td_compile; auto|stz|tid]. Qed.
Lemma td_simple : forall n, simple E GE mt fm rf trying kid n -> tidy (stepF E f n).
Proof.
  intros n [[HF (l & EE & NE & _)]|[[HF (EE & x & EX & _)]|(_ & HP & HT & _)]]; unfold stepF, schemaStep.
  - destruct HF as [H1 H2 H3 H4 H5 H6 H7 H8 _]. rewrite H1, H2, H3, H4, H5, H6, H7, H8, EE. cbn [is_some orb].
    destruct (unsupported n); [tid|]. destruct l; [congruence|]. apply td_parseEnum.
  - destruct HF as [H1 H2 H3 H4 H5 H6 H7 H8 _]. rewrite H1, H2, H3, H4, H5, H6, H7, H8, EE, EX. cbn [is_some orb].
    destruct (unsupported n); [tid|]. apply td_parseConst.
  - destruct HP as [H1 H2 H3 H4 H5 H6 H7 H8 H9 H10 _]. rewrite H1, H2, H3, H4, H5, H6, H7, H8, H9, H10. cbn [is_some orb].
    destruct (unsupported n); [tid|]. unfold typeNames in HT.
    assert (MANY : forall ts, (forall t, In t ts -> usesOnly E GE mt fm rf trying kid t n) -> tidy (parseMultiple E recN mrg ts n)).
    { intros ts K. unfold parseMultiple. apply (td_bind E); [apply td_parseTypes; auto|stz|tid]. }
    destruct (sType n) as [[x [ts|]]|]; cbn [mtMultiple mtSingle] in *; [apply MANY; exact HT| |].
    + destruct (String.eqb_spec x "") as [->|NX]; cbn [negb].
      * exfalso. destruct (HT "" (or_introl eq_refl)) as [X _]. cbn in X. intuition discriminate.
      * apply td_parseType. apply HT. left. reflexivity.
    + destruct (String.eqb_spec (inferType n) "unknown") as [EI|NI]; [apply MANY; exact HT|].
      apply td_parseType. apply HT. apply inferType_all. exact NI.
Qed.
Lemma td_not : forall n x, sRef n = None -> sAllOf n = None -> sAnyOf n = None -> sOneOf n = None ->
  sMergedNot n = [] -> sNot n = Some x -> sRef x = None -> sAllOf x = None -> sNot x = None -> sMergedNot x = [] ->
  (forall n1 x1, mergesTo E [set_sNot None (set_sMergedNot [] n)] n1 -> mergesTo E [emptyNode; x] x1 -> forall m, negatesTo E n1 x1 m -> kid m) ->
  tidy (stepF E f n).
Proof.
  intros n x R A AO OO MN N XR XA XN XM K. unfold stepF, schemaStep. destruct (unsupported n); [tid|].
  rewrite R, A, OO, AO, N. cbn [is_some orb]. unfold parseNot, collectNots. rewrite N, MN. cbn [app].
  revert K. generalize (set_sNot None (set_sMergedNot [] n)). intros n' K.
  intros s b s' H HE.
  apply pbind_ok in H. destruct H as (p & s3 & H0 & H). pose proof (si_partitionNots _ _ _ _ _ _ _ H0) as Z0. cbn [partitionNots] in H0.
  apply pbind_ok in H0. destruct H0 as (u & t1 & T1 & H0).
  apply pbind_ok in H0. destruct H0 as (x1 & t2 & T2 & H0).
  assert (X1 : MergeFlat.sameKeys x1 x) by (eapply MergeFlat.merge_after_empty; [exact XR|exact XA|exact T2]).
  assert (N1 : sNot x1 = None).
  { pose proof (MergeFlat.skNots _ _ X1) as KN. unfold collectNots in KN. rewrite XN, XM in KN. cbn [app] in KN. apply app_eq_nil in KN. destruct KN as [KN _].
    destruct (sNot x1); [discriminate|reflexivity]. }
  rewrite N1 in H0.
  apply pbind_ok in H0. destruct H0 as (u2 & t3 & T3 & H0).
  apply pbind_ok in H0. destruct H0 as (p0 & t4 & T4 & H0). apply pret_ok in T4. destruct T4 as [-> ->].
  apply pret_ok in H0. destruct H0 as [-> ->]. cbn [fst snd] in H.
  apply pbind_ok in H. destruct H as (n0 & t5 & T5 & H). apply pret_ok in T5. destruct T5 as [-> ->].
  apply pbind_ok in H. destruct H as (n1 & t6 & T6 & H).
  pose proof (st_merge E _ _ _ _ _ T6) as K1. pose proof (si_merge E _ _ _ _ _ T6) as Z1.
  apply pbind_ok in H. destruct H as (st & t7 & T7 & H).
  pose proof (st_applyNots E _ _ _ _ _ _ _ T7) as K2. pose proof (si_applyNots E _ _ _ _ _ _ _ T7) as Z2.
  apply pbind_ok in H. destruct H as (r & t8 & T8 & H).
  pose proof (st_parseF E _ _ _ _ _ _ T8) as K3.
  assert (t8 = s') as -> by (destruct r; apply pret_ok in H; symmetry; apply H).
  assert (E7 : pErrs t7 = []) by (eapply errs_before; eauto). assert (E6 : pErrs t6 = []) by (eapply errs_before; eauto). assert (E3 : pErrs t3 = []) by (eapply errs_before; eauto).
  assert (E2 : pErrs t2 = []). { unfold popPath in T3. apply pmod_ok in T3. subst t3. exact E3. }
  cbn [applyNots] in T7. apply pbind_ok in T7. destruct T7 as ([m1 c1] & t9 & T9 & T7). apply pret_ok in T7. destruct T7 as [-> ->]. cbn [fst snd] in *.
  eapply fresh_trans; [apply fresh_same; rewrite Z2, Z1; exact Z0|].
  eapply (HK m1); [|exact T8|exact HE].
  apply (K n1 x1); [exists f, t3, t6; auto|exists f, t1, t2; auto|exists f, t6, c1, t9; auto].
Qed.
End Level.

Lemma td_node : forall E f n, (forall f', tidy (stepF E f' n)) -> tidy (parseNode E f n).
Proof.
  intros E f n K s r s' H HE. destruct f as [|f]; [discriminate H|]. cbn [parseNode parseF] in H. unfold parseNode in H. cbn [parseF] in H. unfold nodeStep in H.
  apply pbind_ok in H. destruct H as (s0 & s1 & H1 & H). apply pget_ok in H1. destruct H1 as [-> ->].
  apply pbind_ok in H. destruct H as (u & s2 & H2 & H). apply pmod_ok in H2.
  apply pbind_ok in H. destruct H as (r1 & s3 & H3 & H).
  apply pbind_ok in H. destruct H as (s4 & s5 & H4 & H). apply pget_ok in H4. destruct H4 as [-> ->].
  apply pbind_ok in H. destruct H as (u1 & s6 & H6 & H). apply pmod_ok in H6. apply pret_ok in H. destruct H as [_ ->].
  assert (E3 : pErrs s3 = []) by (subst s6; exact HE).
  assert (F3 : fresh s2 s3).
  { destruct (_ <? _); [apply pret_ok in H3; destruct H3 as [_ ->]; apply fresh_refl|].
    apply pbind_ok in H3. destruct H3 as (u3 & t1 & T1 & H3). apply pmod_ok in T1.
    apply pbind_ok in H3. destruct H3 as (r3 & t2 & T2 & H3).
    assert (Z : pRes s3 = pRes t2).
    { revert H3. match goal with |- ?m t2 = _ -> _ => assert (S : silent m) by sil end. intros X. exact (S _ _ _ X). }
    assert (E2 : pErrs t2 = []).
    { revert H3. match goal with |- ?m t2 = _ -> _ => assert (S : stable E m) by stab end. intros X. eapply errs_before; [eapply S; exact X|exact E3]. }
    eapply fresh_trans; [apply (fresh_same s2 t1); subst t1; reflexivity|].
    eapply fresh_trans; [|apply fresh_same; exact Z]. destruct f as [|f]; [discriminate T2|]. exact (K f _ _ _ T2 E2). }
  subst s2 s6. exact F3.
Qed.

Theorem td_supported : forall E GE mt fm rf trying d n f, supported E GE mt fm rf trying d n -> tidy (parseNode E f n).
Proof.
  intros E GE mt fm rf trying. induction d as [|d IH]; intros n f H; [destruct H|]. apply td_node. clear f. intros f. cbn [supported] in H.
  assert (HK : forall c, supported E GE mt fm rf trying d c -> tidy (parseF E f false c)) by (intros; eapply IH; eauto).
  destruct H as [H|[(HR & _ & l & HA & _ & K)|[(HR & _ & HA & HO & _ & l & HL & K)|[(HR & _ & HA & HY & _ & b & HL & K)|(_ & HR & _ & HA & HY1 & HO1 & MN & x & HN & XR & XA & XN & XM & _ & _ & K)]]]].
  - eapply td_simple; eauto.
  - unfold stepF, schemaStep. destruct (unsupported n); [apply td_bad|]. rewrite HR, HA. eapply td_parseAllOf; eauto.
  - unfold stepF, schemaStep. destruct (unsupported n); [apply td_bad|]. rewrite HR, HA, HO, HL. cbn [is_some orb]. unfold parseCombination. rewrite HO, HL. cbn [get_or].
    apply (td_bind E); [eapply td_parseBranches; [exact HK|]|intros [|? [|? ?]]; stab|intros s1 [|? [|? ?]] s2 _ _; [apply td_bad|apply td_good|apply td_good]].
    intros b base I B. exact (proj2 (K b base I B)).
  - unfold stepF, schemaStep. destruct (unsupported n); [apply td_bad|]. rewrite HR, HA, HY, HL. cbn [is_some orb]. unfold parseCombination. rewrite HL. cbn [get_or].
    apply (td_bind E); [eapply td_parseBranches; [exact HK|]|intros [|? [|? ?]]; stab|intros s1 [|? [|? ?]] s2 _ _; [apply td_bad|apply td_good|apply td_good]].
    intros b0 base [<-|[]] B. exact (proj2 (K base B)).
  - eapply td_not; eauto. intros n1 x1 M1 M2. exact (proj2 (K n1 x1 M1 M2)).
Qed.
