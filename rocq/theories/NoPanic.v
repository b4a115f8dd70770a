(* Parsing a tame document only produces generators that never panic: the proofs behind C48. *)
From Coq Require Import ZArith List String Bool Lia.
From Verif Require Import Base Float64 Json Schema NodeFacts Util Number Options Gen GenFacts GenInv Codec PState RefPath Merge NotMerge Parse PFacts.
From Verif Require Import FuelMono Terminate NumberFacts NumberSafe SpecRun SpecPanic Tame.
Import ListNotations.
Open Scope string_scope.
Open Scope Z_scope.

Inductive desc : gen -> gen -> Prop :=
| desc_refl : forall g, desc g g
| desc_step : forall g c d, child c g -> desc c d -> desc g d.
Lemma desc_trans : forall a b c, desc a b -> desc b c -> desc a c.
Proof. intros a b c H. induction H; auto. intros D. eapply desc_step; eauto. Qed.

Section NoPanic.
Variable GE : env.
Hypothesis Hopts : smallOptions (eOpts GE).
Variable ms : f64 -> Prop.
Hypothesis Hchain : chain ms.
Variable E : penv.
Hypothesis Hfetch : forall p d n, pxFetch E p d = Some n -> tm ms n.

(* the local condition of wf1 without the lengths of slices *)
Definition wf0 (g : gen) : Prop :=
  match g with
  | GEnum vs => vs <> []
  | GNumber n => forall d, exists v, numberGenerate n d = Ok v
  | GArray t _ _ _ _ c => arrOk GE t c
  | GObject _ _ _ c => objOk GE c
  | GMulti gs | GComb gs => gs <> []
  | _ => True
  end.
Definition safe (g : gen) : Prop := forall d, desc g d -> wf0 d.
Lemma safe_intro : forall g, wf0 g -> (forall c, child c g -> safe c) -> safe g.
Proof. intros g W H d D. destruct D; auto. exact (H _ H0 _ D). Qed.
Lemma safe_leaf : forall g, wf0 g -> (forall c, ~ child c g) -> safe g.
Proof. intros g W H. apply safe_intro; auto. intros c C. destruct (H c C). Qed.
Ltac leaf := apply safe_leaf; [auto|intros c C; inversion C].
Lemma safe_null : safe GNull. Proof. leaf. exact I. Qed.
Lemma safe_bool : safe GBool. Proof. leaf. exact I. Qed.
Lemma safe_const : forall v, safe (GConst v). Proof. intros v. leaf. exact I. Qed.
Lemma safe_string : forall a b c d, safe (GString a b c d). Proof. intros. apply safe_leaf; [exact I|]. intros x C. inversion C. Qed.
Lemma safe_ref : forall a b, safe (GRef a b). Proof. intros. leaf. exact I. Qed.
Lemma safe_allof : forall g, safe g -> safe (GAllOf g).
Proof. intros g H. apply safe_intro; [exact I|]. intros c C. inversion C; subst. auto. Qed.
Lemma safe_list : forall k gs, k = GMulti \/ k = GComb -> gs <> [] -> (forall g, In g gs -> safe g) -> safe (k gs).
Proof. intros k gs [-> | ->] N H; (apply safe_intro; [exact N|]); intros c C; inversion C; subst; auto. Qed.
Lemma safe_constrained : forall g cs, safe g ->
  (forall l k t e x, In (CIf l) cs -> In (k, (t, e)) l -> t = Some x \/ e = Some x -> safe x) -> safe (GConstrained g cs).
Proof. intros g cs Hg H. apply safe_intro; [exact I|]. intros c C. inversion C; subst; eauto. Qed.
Definition osafe (o : option gen) : Prop := forall g, o = Some g -> safe g.
Lemma safe_array : forall t i a c u cf, arrOk GE t cf -> (forall g, In g t -> safe g) -> osafe i -> osafe a -> osafe c -> osafe u -> safe (GArray t i a c u cf).
Proof. intros t i a c u cf W H1 H2 H3 H4 H5. apply safe_intro; [exact W|]. intros x C. inversion C; subst; auto using safe_null, safe_string. Qed.
Lemma safe_object : forall p q a cf, objOk GE cf -> (forall k g, In (k, g) p -> safe g) -> (forall k b g, In (k, (b, g)) q -> safe g) -> osafe a -> safe (GObject p q a cf).
Proof. intros p q a cf W H1 H2 H3. apply safe_intro; [exact W|]. intros x C. inversion C; subst; eauto using safe_null. Qed.

Definition refsSafe (r : list (string * list (string * gen))) : Prop :=
  forall d m p g, assoc d r = Some m -> assoc p m = Some g -> safe g.

Notation "'pq' m Q" := (pp ms refsSafe m Q) (at level 10, m at next level, Q at next level).
Lemma ppl : forall A (m : P A) Q, pq m Q -> pq m any.
Proof. intros A m Q H. eapply pp_weak; [exact H|]. intros; exact I. Qed.
Lemma any_ret : forall A (a : A), pq (pret a) any.
Proof. intros. apply pp_ret. exact I. Qed.
Lemma any_bind : forall A B (m : P A) (k : A -> P B), pq m any -> (forall a, pq (k a) any) -> pq (pbind m k) any.
Proof. intros A B m k Hm Hk. eapply pp_bind; [exact Hm|]. intros a _. apply Hk. Qed.
Lemma any_lift : forall A (r : res A), pq (plift r) any.
Proof. intros. apply pp_lift. intros; exact I. Qed.
Lemma any_get : pq pget any.
Proof. eapply ppl. apply pp_get. Qed.
Lemma any_addErr : forall a, pq (addErr a) any.
Proof. intros a s u s' I0 H. unfold addErr in H. exact (pp_addErrSub ms refsSafe _ _ s u s' I0 H). Qed.
Create HintDb anydb.
Hint Resolve any_ret any_lift any_get pp_addErrSub any_addErr pp_pushPath pp_popPath pp_pushRes pp_popRes pp_setResolving pp_withDepth pp_warnIf pp_warnAll : anydb.
Lemma any_warnMerge : forall a, pq (warnMerge a) any.
Proof. intros. unfold warnMerge. auto with anydb. Qed.
Lemma any_warnField : forall a, pq (warnField a) any.
Proof. intros. unfold warnField. auto with anydb. Qed.
Hint Resolve any_warnMerge any_warnField : anydb.
Ltac anys :=
  repeat first
  [ progress (intros)
  | solve [auto with anydb]
  | apply any_bind
  | match goal with
    | |- pp _ _ (match ?x with _ => _ end) any => destruct x
    | |- pp _ _ (if ?x then _ else _) any => destruct x
    | |- pp _ _ (let '(_, _) := ?x in _) any => destruct x
    end ].

(* ------------------------------------------------------------------ negations only add errors *)
Section Not.
Variable rec : schemaNode -> schemaNode -> P nstate.
Hypothesis Hrec : forall n x, pq (rec n x) any.
Local Hint Resolve Hrec : anydb.
Lemma any_resolveBoundsInt : forall f a b c d, pq (resolveBoundsInt f a b c d) any.
Proof. unfold resolveBoundsInt. anys. Qed.
Local Hint Resolve any_resolveBoundsInt : anydb.
Lemma any_notApplyType : forall m n x, pq (notApplyType m n x) any.
Proof. unfold notApplyType. anys. Qed.
Lemma any_notApplyString : forall st n x, pq (notApplyString E st n x) any.
Proof. unfold notApplyString. anys. Qed.
Lemma any_notApplyNumber : forall st n x, pq (notApplyNumber st n x) any.
Proof.
  unfold notApplyNumber. intros [m c] n x.
  destruct (boundsFloat _ _ _ _ _ _ _ _ _) as [[[[mn mx] amn] amx] w]. apply any_bind; [auto with anydb|]. intros _.
  repeat match goal with |- pp _ _ (if ?b then _ else _) _ => destruct b end; anys.
Qed.
Lemma any_notApplyEnum : forall st n x, pq (notApplyEnum st n x) any.
Proof. unfold notApplyEnum. anys. Qed.
Lemma any_notApplyConst : forall st n x, pq (notApplyConst st n x) any.
Proof. unfold notApplyConst. anys. Qed.
Lemma any_notSub : forall sc n x, pq (notSub rec sc n x) any.
Proof. unfold notSub. anys. Qed.
Local Hint Resolve any_notSub : anydb.
Lemma any_notSubPtr : forall sc n x, pq (notSubPtr rec sc n x) any.
Proof. unfold notSubPtr. anys. Qed.
Lemma any_notItems : forall n x, pq (notItems rec n x) any.
Proof. unfold notItems. anys. Qed.
Lemma any_notNof : forall sc n x, pq (notNof rec sc n x) any.
Proof. unfold notNof. anys. Qed.
Lemma any_notPrefixLoop : forall n i d x, pq (notPrefixLoop rec i d n x) any.
Proof.
  induction n as [|a n IH]; intros i d x.
  - revert i. induction x; intros; simpl; [anys|]. anys. destruct x; [anys|]. exact (IHx (i + 1)).
  - destruct x; simpl; anys.
Qed.
Local Hint Resolve any_notSubPtr any_notItems any_notNof any_notPrefixLoop : anydb.
Lemma any_notPrefix : forall n x it, pq (notPrefix rec n x it) any.
Proof. unfold notPrefix. anys. Qed.
Lemma any_resolveBool : forall v x, pq (resolveBool v x) any.
Proof. unfold resolveBool. anys. Qed.
Local Hint Resolve any_notPrefix any_resolveBool : anydb.
Lemma any_notApplyArray : forall st n x, pq (notApplyArray rec st n x) any.
Proof. unfold notApplyArray. anys. Qed.
Lemma any_notPropsLoop : forall ks n x acc, pq (notPropsLoop rec ks n x acc) any.
Proof. induction ks; simpl; anys. Qed.
Local Hint Resolve any_notPropsLoop : anydb.
Lemma any_notApplyObject : forall st n x, pq (notApplyObject rec st n x) any.
Proof. unfold notApplyObject. anys. Qed.
Lemma any_warnUnsupported : forall x, pq (warnUnsupported x) any.
Proof. unfold warnUnsupported. intros. repeat (apply any_bind; [auto with anydb|intros _]). auto with anydb. Qed.
Local Hint Resolve any_notApplyType any_notApplyString any_notApplyNumber any_notApplyEnum any_notApplyConst any_notApplyArray any_notApplyObject any_warnUnsupported : anydb.
Lemma any_notStep : forall n x, pq (notStep E rec n x) any.
Proof. unfold notStep. anys. Qed.
End Not.
Lemma any_notMerge : forall f n x, pq (notMerge E f n x) any.
Proof. induction f; simpl; intros; [apply any_lift|]. apply any_notStep; auto. Qed.
Hint Resolve any_notMerge : anydb.
Lemma any_applyNots : forall f xs n c, pq (applyNots E f n c xs) any.
Proof. induction xs; simpl; anys. Qed.
Lemma nots_safe : forall f xs n c, tm ms n -> tms ms xs -> pq (applyNots E f n c xs) (fun st => tm ms (fst st)).
Proof.
  intros f xs n c Hn Hx s st s' I0 H. destruct (any_applyNots f xs n c s st s' I0 H) as [I1 _]. split; [exact I1|].
  exact (applyNots_tame ms E f xs n c s st s' Hn Hx H).
Qed.

(* ------------------------------------------------------------------ parsing *)
Definition eSafe : err gen -> Prop := okErr safe.
Lemma orNull_safe : forall r, eSafe r -> safe (orNull r).
Proof. intros [g|e] H; [exact H|exact safe_null]. Qed.
Lemma pq_good : forall A (Q : A -> Prop) x, Q x -> pq (good x) (okErr Q).
Proof. intros. apply pp_ret. exact H. Qed.
Lemma pq_bad : forall A (Q : A -> Prop) e, pq (@bad A e) (okErr Q).
Proof. intros. apply pp_ret. exact I. Qed.
Lemma any_compile : forall n f, pq (compileNode E n f) any.
Proof.
  intros n f s a s' I0 H. unfold compileNode in H. destruct (assoc _ (pRes s)); injection H as <- <-; (split; [exact I0|exact I]).
Qed.
Lemma any_addIdRef : forall p g, safe g -> pq (addIdRef p g) any.
Proof.
  intros p g Hg s a s' [I1 I2] H. apply pmod_ok in H. subst s'. split; [|exact I]. split; [exact I1|].
  intros d m q x Hm Hx. cbn [pRefs withRefs] in Hm. destruct (string_dec d (pParsing s)) as [->|Nd].
  - rewrite assoc_massign_same in Hm. injection Hm as <-. destruct (string_dec q p) as [->|Nq].
    + rewrite assoc_massign_same in Hx. injection Hx as <-. exact Hg.
    + rewrite assoc_massign_other in Hx by auto. destruct (assoc (pParsing s) (pRefs s)) eqn:A; cbn [get_or] in Hx; [eapply I2; eauto|discriminate].
  - rewrite assoc_massign_other in Hm by auto. eapply I2; eauto.
Qed.
Lemma any_addRef : forall g, safe g -> pq (addRef g) any.
Proof. intros g Hg s a s' I0 H. exact (any_addIdRef (pPath s) g Hg s a s' I0 H). Qed.
Lemma any_deferred : forall ref, pq (deferredRef E ref) any.
Proof.
  intros ref s a s' I0 H. unfold deferredRef in H. split; [|exact I]. destruct (String.eqb _ _); [injection H as <- <-; exact I0|].
  destruct (resolveDocRef E s _ _) as [[d p]|e]; injection H as <- <-; [|exact I0]. destruct (_ && _); exact I0.
Qed.
Lemma pq_enum : forall n, pq (parseEnum E n) eSafe.
Proof.
  intros n. unfold parseEnum. eapply pp_bind; [apply any_compile|]. intros [c|e] _; [|apply pq_bad].
  destruct (filter _ _) as [|v [|w l]]; [apply pq_bad|apply pq_good; apply safe_const|].
  apply pq_good. apply safe_leaf; [discriminate|]. intros x C. inversion C.
Qed.
Lemma pq_const : forall n v, pq (parseConst E n v) eSafe.
Proof.
  intros n v. unfold parseConst. eapply pp_bind; [apply any_compile|]. intros [c|e] _; [|apply pq_bad].
  destruct (pxValid E c v); [apply pq_good; apply safe_const|apply pq_bad].
Qed.
Lemma pq_string : forall n, pq (parseString E n) eSafe.
Proof.
  intros n. unfold parseString. cbv zeta. repeat match goal with |- pp _ _ (if ?b then _ else _) _ => destruct b; [apply pq_bad|] end.
  destruct (sPattern n); [destruct (pxRegexOk E s)|]; try apply pq_bad; apply pq_good; apply safe_string.
Qed.
Lemma pq_reference : forall ref, pq (parseReference E ref) eSafe.
Proof.
  intros ref. unfold parseReference. destruct (containsStr _ _); [apply pq_bad|]. eapply pp_bind; [apply any_deferred|].
  intros [[d p]|e] _; [apply pq_good; apply safe_ref|apply pq_bad].
Qed.
Lemma pq_num : forall n i, tm ms n -> pq (parseNum n i) eSafe.
Proof.
  intros n i Hn. unfold parseNum. destruct (parseNumber n i) as [[f|g]|e] eqn:Np; [apply pq_good; apply safe_const| |apply pq_bad].
  apply pq_good. apply safe_leaf; [|intros x C; inversion C]. intros d.
  destruct (tm_lc ms n Hn) as (_&_&_&_&_&_&_&N8&N9&N10&N11&N12).
  eapply number_safe; [exact N8|exact N9|exact N10|exact N11| |exact Np]. intros m Hm. destruct Hchain as [C1 _]. destruct (C1 m (N12 m Hm)) as [A B].
  split; [exact A|exact B].
Qed.

Section Parse.
Variable recN recS : schemaNode -> P (err gen).
Variable mrg : list schemaNode -> P schemaNode.
Variable nots : schemaNode -> list schemaNode -> P nstate.
Hypothesis HN : forall n, tm ms n -> pq (recN n) eSafe.
Hypothesis HS : forall n, tm ms n -> pq (recS n) eSafe.
Hypothesis HM : forall l, tms ms l -> pq (mrg l) (tm ms).
Hypothesis HX : forall n l, tm ms n -> tms ms l -> pq (nots n l) (fun st => tm ms (fst st)).

Lemma any_pushSources : forall sc srcs, pq (pushSources E sc srcs) any.
Proof. induction srcs; cbn [pushSources]; anys. Qed.
Lemma any_popMany : forall k, pq (popMany k) any.
Proof. induction k; cbn [popMany]; anys. Qed.
Lemma pq_inScope : forall sc n srcs, tm ms n -> pq (inScope E recN sc n srcs) eSafe.
Proof.
  intros sc n srcs Hn. unfold inScope. apply pp_run; [auto with anydb|]. eapply pp_bind; [apply any_pushSources|]. intros k _.
  eapply pp_bind; [apply HN; exact Hn|]. intros r Hr. apply pp_run; [apply any_popMany|]. apply pp_run; [auto with anydb|]. apply pp_ret. exact Hr.
Qed.
Definition allSafe {A} (l : list (A * gen)) : Prop := forall k g, In (k, g) l -> safe g.
Lemma allSafe_cons : forall A (k : A) g l, safe g -> allSafe l -> allSafe ((k, g) :: l).
Proof. intros A k g l Hg Hl k' g' [X|X]; [injection X as <- <-; exact Hg|eauto]. Qed.
Lemma pq_props : forall l, tms ms (map snd l) -> pq (parseProps E recN l) allSafe.
Proof.
  induction l as [|[k n] l IH]; intros Hl; cbn [parseProps]; [apply pp_ret; intros k g []|].
  cbn [map snd] in Hl. apply tms_cons in Hl. destruct Hl as [Hn Hl].
  eapply pp_bind; [apply pq_inScope; exact Hn|]. intros r Hr. eapply pp_bind; [exact (IH Hl)|]. intros gs Hgs. apply pp_ret.
  apply allSafe_cons; auto using orNull_safe.
Qed.
Lemma pq_patterns : forall l, tms ms (map snd l) -> pq (parsePatterns E recN l) (fun q => forall k b g, In (k, (b, g)) q -> safe g).
Proof.
  induction l as [|[k n] l IH]; intros Hl; cbn [parsePatterns]; [apply pp_ret; intros k b g []|].
  cbn [map snd] in Hl. apply tms_cons in Hl. destruct Hl as [Hn Hl].
  eapply pp_bind; [apply pq_inScope; exact Hn|]. intros r Hr. cbv zeta. apply pp_run; [destruct (pxPropRegexOk E k); auto with anydb|].
  eapply pp_bind; [exact (IH Hl)|]. intros gs Hgs. apply pp_ret. intros k' b' g' [X|X]; [|eauto]. injection X as <- <- <-. apply orNull_safe; auto.
Qed.
Lemma tms_omaps : forall o, tms ms (omaps o) -> tms ms (map snd (get_or o [])).
Proof. intros [l|] H; [exact H|apply tms_nil]. Qed.
Lemma tms_olist : forall o, tms ms (olist o) -> tms ms (get_or o []).
Proof. intros [l|] H; [exact H|apply tms_nil]. Qed.
Lemma tms_one : forall n, tm ms n -> tms ms [n].
Proof. intros n H c [<-|[]]. exact H. Qed.
Lemma opts4 : 0 <= oDefaultArrayMinItems (eOpts GE) < 2 ^ 60 /\ 0 <= oDefaultArrayMaxItems (eOpts GE) < 2 ^ 60 /\
  0 <= oDefaultObjectMinProperties (eOpts GE) < 2 ^ 60 /\ 0 <= oDefaultObjectMaxProperties (eOpts GE) < 2 ^ 60.
Proof. unfold smallOptions in Hopts. repeat split; apply Hopts; cbn; auto. Qed.
Lemma pq_object : forall n, tm ms n -> pq (parseObject E recN n) eSafe.
Proof.
  intros n Hn. pose proof (tm_lc ms n Hn) as L. apply tm_fields in Hn. destruct Hn as [_ F]. unfold parseObject. cbv zeta.
  destruct (Z.ltb_spec (get_or (sMinProperties n) 0) 0) as [|B1]; [apply pq_bad|].
  destruct (Z.ltb_spec (get_or (sMaxProperties n) 0) 0) as [|B2]; [apply pq_bad|].
  destruct (is_some (sMaxProperties n) && (get_or (sMaxProperties n) 0 <? get_or (sMinProperties n) 0)); [apply pq_bad|].
  destruct (_ && _); [apply pq_bad|]. destruct (_ && _); [apply pq_bad|].
  unfold eachField in F. destruct F as (F1&F2&F3&_).
  eapply pp_bind; [apply pq_patterns; apply tms_omaps; exact F3|]. intros pats Hp. eapply pp_bind; [apply pq_props; apply tms_omaps; exact F1|]. intros ps Hps.
  eapply pp_bind with (R := osafe).
  - destruct (sAdditionalProperties n) as [[sub b]|]; cbn [get_or nofFalse nofSchema]; [|apply pp_ret; intros g X; discriminate X].
    destruct b; [apply pp_ret; intros g X; discriminate X|]. destruct sub as [sub|]; [|apply pp_ret; intros g X; discriminate X].
    eapply pp_bind; [apply pq_inScope; apply F2; left; reflexivity|]. intros r Hr. apply pp_ret. intros g X. injection X as <-. apply orNull_safe; auto.
  - intros add Hadd. apply pq_good. apply safe_object; auto.
    destruct L as (_&_&_&_&_&L6&L7&_). pose proof opts4 as O. unfold vv, zin, zle in *.
    assert (B1' : 0 <= get_or (sMinProperties n) 0 <= 2 ^ 60 + 2). { destruct (sMinProperties n) as [k|]; cbn [get_or] in *; [pose proof (L6 k eq_refl)|]; lia. }
    assert (B2' : 0 <= get_or (sMaxProperties n) 0 <= 2 ^ 60). { destruct (sMaxProperties n) as [k|]; cbn [get_or] in *; [pose proof (L7 k eq_refl)|]; lia. }
    unfold objOk, objMax, objMin, getInt. cbn [bMinProperties bMaxProperties]. revert B1' B2'. clear -O. generalize (get_or (sMinProperties n) 0) (get_or (sMaxProperties n) 0). intros a b Ha Hb.
    change (2 ^ 63) with (8 * 2 ^ 60). generalize dependent (2 ^ 60). intros V O Ha Hb.
    destruct (a =? 0), (b =? 0); match goal with |- context [if ?u <? ?v then _ else _] => destruct (Z.ltb_spec u v) end; lia.
Qed.
Lemma pq_optScope : forall sc o, tms ms (onode o) -> pq (optScope E recN sc o) (okErr osafe).
Proof.
  intros sc [n|] Ho; cbn [optScope]; [|apply pq_good; intros g X; discriminate X].
  eapply pp_bind; [apply pq_inScope; apply Ho; left; reflexivity|]. intros [g|e] Hg; [|apply pq_bad]. apply pq_good. intros g' X. injection X as <-. exact Hg.
Qed.
Lemma pq_tuple : forall l i, tms ms l -> pq (parseTuple E recN i l) (okErr (fun gs => List.length gs = List.length l /\ forall g, In g gs -> safe g)).
Proof.
  induction l as [|n l IH]; intros i Hl; cbn [parseTuple]; [apply pq_good; split; [reflexivity|intros g []]|].
  apply tms_cons in Hl. destruct Hl as [Hn Hl]. eapply pp_bind; [apply pq_inScope; exact Hn|]. intros [g|e] Hg; [|apply pq_bad].
  eapply pp_bind; [exact (IH (i + 1) Hl)|]. intros [gs|e] Hgs; [|apply pq_bad]. destruct Hgs as [L S]. apply pq_good. split; [cbn; congruence|].
  intros x [<-|Hx]; auto.
Qed.
Lemma pq_contains : forall n, tm ms n -> pq (parseContains E recN mrg n) (okErr osafe).
Proof.
  intros n Hn. apply tm_fields in Hn. destruct Hn as [_ F]. unfold eachField in F. destruct F as (_&_&_&F4&F5&_). unfold parseContains.
  destruct (sContains n) as [c|]; [|apply pq_good; intros g X; discriminate X].
  assert (Hc : tm ms c) by (apply F5; left; reflexivity).
  eapply pp_bind with (R := tm ms).
  - destruct (sItems n) as [[[it|] l b]|]; cbn [itNode]; try (apply pp_ret; exact Hc).
    eapply pp_bind; [apply HM; apply two_tm; [apply F4; left; reflexivity|exact Hc]|]. intros m Hm. apply pp_ret.
    apply tm_fields in Hm. apply tm_fields. destruct Hm as [Lm Fm]. split; [exact Lm|]. unfold eachField in *. cbn [set_sContains sProperties sAdditionalProperties sPatternProperties sItems sContains sPrefixItems
      sAdditionalItems sUnevaluatedItems sNot sAllOf sAnyOf sOneOf sDefs sDefinitions sIf sThen sElse sDependentSchemas sMergedIf sMergedNot]. pose proof (tms_nil ms). cbn [onode]. tauto.
  - intros c' Hc'. apply pq_optScope. apply tms_one; auto.
Qed.
Lemma getInt_cases : forall a b, (a = 0 /\ getInt a b = b) \/ (a <> 0 /\ getInt a b = a).
Proof. intros. unfold getInt. destruct (Z.eqb_spec a 0); auto. Qed.
Lemma pq_array : forall n, tm ms n -> pq (parseArray E recN mrg n) eSafe.
Proof.
  intros n Hn. pose proof (tm_lc ms n Hn) as L. pose proof Hn as Kn. apply tm_fields in Hn. destruct Hn as [_ F]. unfold parseArray. cbv zeta.
  match goal with |- context [badBounds ?z (get_or (sMaxContains n) 0)] => set (minc := z) end.
  set (mni := get_or (sMinItems n) 0). set (mxi := get_or (sMaxItems n) 0).
  set (tl := Z.of_nat (List.length (get_or (sPrefixItems n) []))).
  repeat match goal with |- pp _ _ (if ?b then _ else _) _ => destruct b; [apply pq_bad|] end.
  unfold eachField in F. destruct F as (F1&F2&F3&F4&F5&F6&F7&F8&_).
  set (itemsFalse := match sItems n with Some d => itDisallow d | None => false end).
  set (only0 := itemsFalse || match sAdditionalItems n with Some d => nofFalse d | None => false end). clearbody itemsFalse only0.
  eapply pp_bind; [apply pq_optScope; destruct (sItems n) as [[i l b]|]; [destruct b; [apply tms_nil|]; cbn [itNode]; intros c Hc; apply F4; cbn [itemss itNode itNodes]; apply in_or_app; auto|apply tms_nil]|].
  intros [it|e] Hit; [|apply pq_bad].
  eapply pp_bind; [apply pq_optScope; destruct (sAdditionalItems n) as [[i b]|]; [exact F7|apply tms_nil]|]. intros [ad|e] Had; [|apply pq_bad].
  eapply pp_bind; [apply pq_contains; exact Kn|]. intros [ct|e] Hct; [|apply pq_bad].
  eapply pp_bind; [apply pq_tuple; unfold tupleNodes|].
  { assert (T : tms ms match sItems n with Some d => get_or (itNodes d) [] | None => [] end).
    { destruct (sItems n) as [[i l b]|]; [|apply tms_nil]. intros c Hc. apply F4. cbn [itemss itNode itNodes] in *. apply in_or_app. right. destruct l; exact Hc. }
    destruct (sPrefixItems n) as [[|x r]|]; auto. }
  intros [tu|e] Htu; [|apply pq_bad]. destruct Htu as [Ltu Htu].
  eapply pp_bind; [apply pq_optScope; destruct (sUnevaluatedItems n) as [[i b]|]; [destruct b; [apply tms_nil|exact F8]|apply tms_nil]|].
  intros [un|e] Hun; [|apply pq_bad]. apply pq_good. apply safe_array; auto.
  (* the sizes *)
  assert (Lt : tl = 0 \/ Z.of_nat (List.length tu) = tl).
  { rewrite Ltu. unfold tl, tupleNodes. destruct (sPrefixItems n) as [[|x r]|]; cbn [get_or List.length]; auto. }
  destruct L as (_&L2&L3&L4&_). pose proof opts4 as O. unfold vv, zin in *.
  assert (B1 : - 2 ^ 60 <= mni <= 2 ^ 60 + 2). { unfold mni. destruct (sMinItems n) as [k|]; cbn [get_or]; [pose proof (L2 k eq_refl)|]; lia. }
  assert (B2 : - 2 ^ 60 - 1 <= mxi <= 2 ^ 60). { unfold mxi. destruct (sMaxItems n) as [k|]; cbn [get_or]; [pose proof (L3 k eq_refl)|]; lia. }
  assert (B3 : - 2 ^ 60 - 1 <= minc <= 2 ^ 60 + 2).
  { unfold minc. destruct (_ && _); [lia|]. destruct (sMinContains n) as [k|]; cbn [get_or]; [pose proof (L4 k eq_refl)|]; lia. }
  assert (B4 : 0 <= tl) by (unfold tl; lia).
  unfold arrOk. cbn [aMinItems aMaxItems aMinContains]. clearbody minc mni mxi tl. clear -Lt O B1 B2 B3 B4. unfold defaultOffset.
  assert (P0 : 0 <= Z.of_nat (List.length tu)) by lia.
  set (t := Z.of_nat (List.length tu)) in *. clearbody t. destruct O as (O1 & O2 & _).
  generalize dependent (oDefaultArrayMinItems (eOpts GE)). generalize dependent (oDefaultArrayMaxItems (eOpts GE)). intros dx Hdx dn Hdn.
  assert (V0 : 2 ^ 60 > 100) by lia. change (2 ^ 63) with (8 * 2 ^ 60). generalize dependent (2 ^ 60). intros V B1 B2 B3 Hdx Hdn V0.
  destruct only0.
  - destruct (getInt_cases tl dn) as [[A1 ->]|[A1 ->]], (getInt_cases tl dx) as [[A2 ->]|[A2 ->]]; try lia;
      match goal with |- context [if ?u <? ?v then _ else _] => destruct (Z.ltb_spec u v) end; lia.
  - destruct (getInt_cases mni minc) as [[A1 E1]|[A1 E1]]; rewrite E1;
    match goal with |- context [getInt mxi ?z] => destruct (getInt_cases mxi z) as [[A2 E2]|[A2 E2]]; rewrite E2 end;
    repeat match goal with |- context [getInt ?a ?b] => destruct (getInt_cases a b) as [[? ->]|[? ->]] end;
    match goal with |- context [if ?u <? ?v then _ else _] => destruct (Z.ltb_spec u v) end; lia.
Qed.
Lemma pq_type : forall t n, tm ms n -> pq (parseType E recN mrg t n) eSafe.
Proof.
  intros t n Hn. unfold parseType. destruct (String.eqb t "object"); [apply pq_object; auto|]. destruct (String.eqb t "array"); [apply pq_array; auto|].
  destruct (String.eqb t "number"); [apply pq_num; auto|]. destruct (String.eqb t "integer"); [apply pq_num; auto|].
  destruct (String.eqb t "string"); [apply pq_string|]. destruct (String.eqb t "boolean"); apply pq_good; [apply safe_bool|apply safe_null].
Qed.
Lemma pq_types : forall ts n, tm ms n -> pq (parseTypes E recN mrg ts n) (fun gs => (ts <> [] -> gs <> []) /\ forall g, In g gs -> safe g).
Proof.
  induction ts as [|t ts IH]; intros n Hn; cbn [parseTypes]; [apply pp_ret; split; [auto|intros g []]|].
  eapply pp_bind; [apply pq_type; exact Hn|]. intros r Hr. eapply pp_bind; [apply IH; exact Hn|]. intros gs [_ Hgs]. apply pp_ret.
  split; [discriminate|]. intros g [<-|Hg]; auto using orNull_safe.
Qed.
Lemma pq_multiple : forall ts n, tm ms n -> ts <> [] -> pq (parseMultiple E recN mrg ts n) eSafe.
Proof.
  intros ts n Hn Nt. unfold parseMultiple. eapply pp_bind; [apply pq_types; exact Hn|]. intros gs [A B]. apply pq_good. apply (safe_list GMulti); auto.
Qed.
Lemma pq_allOf : forall n subs, tm ms n -> sAllOf n = Some subs -> pq (parseAllOf E recN mrg n subs) eSafe.
Proof.
  intros n subs Hn A. unfold parseAllOf. cbv zeta. eapply pp_bind; [apply HM; apply residual_tame; auto|]. intros m Hm.
  eapply pp_bind; [apply pq_inScope; exact Hm|]. intros [g|e] Hg; [apply pq_good; apply safe_allof; exact Hg|apply pq_bad].
Qed.
Ltac setter H := apply tm_fields in H; apply tm_fields; destruct H as [Lm Fm]; split; [exact Lm|]; unfold eachField in *;
  cbn [set_sOneOf set_sAnyOf set_sNot set_sMergedNot set_sIf set_sThen set_sElse set_sMergedIf sProperties sAdditionalProperties sPatternProperties sItems sContains sPrefixItems
      sAdditionalItems sUnevaluatedItems sNot sAllOf sAnyOf sOneOf sDefs sDefinitions sIf sThen sElse sDependentSchemas sMergedIf sMergedNot onode olist flat_map]; pose proof (tms_nil ms); tauto.
Lemma pq_branches : forall one n l i, tm ms n -> tms ms l -> pq (parseBranches E recN mrg one i n l) (fun gs => List.length gs = List.length l /\ forall g, In g gs -> safe g).
Proof.
  induction l as [|x l IH]; intros i Hn Hl; cbn [parseBranches]; [apply pp_ret; split; [reflexivity|intros g []]|].
  apply tms_cons in Hl. destruct Hl as [Hx Hl]. eapply pp_bind; [apply HM; apply tms_one; exact Hn|]. intros base Hb. cbv zeta.
  assert (Hb' : tm ms (if one then set_sOneOf None base else set_sAnyOf None base)) by (destruct one; setter Hb).
  eapply pp_bind; [apply HM; apply two_tm; [exact Hb'|exact Hx]|]. intros m Hm. eapply pp_bind; [apply pq_inScope; exact Hm|]. intros r Hr.
  apply pp_run; [destruct (isBad r); auto with anydb|]. eapply pp_bind; [apply IH; auto|]. intros gs [A B]. apply pp_ret. split; [cbn; congruence|].
  intros g [<-|Hg]; auto using orNull_safe.
Qed.
Lemma pq_mergeEach : forall l, tms ms l -> pq (mergeEach mrg l) (tms ms).
Proof.
  induction l as [|n l IH]; intros Hl; cbn [mergeEach]; [apply pp_ret; apply tms_nil|]. apply tms_cons in Hl. destruct Hl as [Hn Hl].
  eapply pp_bind; [apply HM; apply tms_one; exact Hn|]. intros m Hm. eapply pp_bind; [exact (IH Hl)|]. intros r Hr. apply pp_ret. apply tms_cons; auto.
Qed.
Lemma any_compileBranches : forall l i, pq (compileBranches E i l) any.
Proof.
  induction l as [|n l IH]; intros i; cbn [compileBranches]; [auto with anydb|]. cbv zeta. eapply pp_bind; [apply any_compile|]. intros [c|e] _.
  - eapply pp_bind; [apply IH|]. intros es _. auto with anydb.
  - apply pp_run; [auto with anydb|apply IH].
Qed.
Lemma pq_combination : forall n, tm ms n -> pq (parseCombination E recN mrg n) eSafe.
Proof.
  intros n Hn. pose proof Hn as Kn. apply tm_fields in Hn. destruct Hn as [_ F]. unfold eachField in F. destruct F as (_&_&_&_&_&_&_&_&_&_&F11&F12&_). unfold parseCombination. cbv zeta.
  eapply pp_bind; [apply pq_branches; [exact Kn|]|].
  { destruct (match get_or (sOneOf n) [] with [] => false | _ => true end); apply tms_olist; assumption. }
  intros gs [A B].
  assert (F : forall gs', (match gs' with [g] => good g | [] => bad "no branch" | _ => good (GComb gs') end) = match gs' with [] => bad "no branch" | [g] => good g | _ => good (GComb gs') end) by (intros [|? [|]]; reflexivity).
  assert (G : pq (match gs with [g] => good g | [] => bad "no branch" | _ => good (GComb gs) end) eSafe).
  { destruct gs as [|g [|g2 gs]]; [apply pq_bad|apply pq_good; apply B; left; reflexivity|]. apply pq_good. apply (safe_list GComb); auto. discriminate. }
  destruct (get_or (sOneOf n) []) as [|x [|y l]] eqn:El; [exact G|exact G|].
  eapply pp_bind; [apply pq_mergeEach; rewrite <- El; apply tms_olist; exact F12|]. intros es _. eapply pp_bind; [apply any_compileBranches|]. intros cs _.
  apply pq_good. apply safe_constrained; [|intros l0 k t e x0 [X|[]]; discriminate X]. apply (safe_list GComb); auto. destruct gs; [discriminate A|discriminate].
Qed.
Lemma pq_partition : forall l i, tms ms l -> pq (partitionNots mrg i l) (fun p => tms ms (fst p) /\ tms ms (snd p)).
Proof.
  induction l as [|x l IH]; intros i Hl; cbn [partitionNots]; [apply pp_ret; split; apply tms_nil|]. cbv zeta.
  apply tms_cons in Hl. destruct Hl as [Hx Hl]. apply pp_run; [auto with anydb|]. eapply pp_bind; [apply HM; apply two_tm; [apply tm_empty|exact Hx]|]. intros flat Hf.
  apply pp_run; [auto with anydb|]. destruct (sNot flat) as [inner|] eqn:En.
  - apply pp_run; [auto with anydb|]. eapply pp_bind; [apply HM; apply two_tm; [apply tm_empty|]|].
    { apply tm_fields in Hf. destruct Hf as [_ Ff]. unfold eachField in Ff. rewrite En in Ff. cbn [onode] in Ff. assert (T : tms ms [inner]) by tauto. apply T. left. reflexivity. }
    intros fi Hfi. apply pp_run; [auto with anydb|]. eapply pp_bind; [apply IH; exact Hl|]. intros p [P1 P2]. apply pp_ret. split; [exact P1|]. cbn [snd]. apply tms_cons; auto.
  - eapply pp_bind; [apply IH; exact Hl|]. intros p [P1 P2]. apply pp_ret. split; [cbn [fst]; apply tms_cons; auto|exact P2].
Qed.
Lemma pq_not : forall n, tm ms n -> pq (parseNot recN recS mrg nots n) eSafe.
Proof.
  intros n Hn. pose proof Hn as Kn. apply tm_fields in Hn. destruct Hn as [_ F]. unfold eachField in F. unfold parseNot.
  eapply pp_bind; [apply pq_partition|].
  { unfold collectNots. apply tms_app. split; [destruct (sNot n); cbn [onode] in F; tauto|tauto]. }
  intros [singles doubles] [P1 P2]. cbn [fst snd] in P1, P2. cbv zeta.
  assert (Hn' : tm ms (set_sNot None (set_sMergedNot [] n))) by (setter Kn).
  set (n' := set_sNot None (set_sMergedNot [] n)) in *. clearbody n'.
  eapply pp_bind with (R := tm ms). { destruct doubles; [apply pp_ret; exact Hn'|]. apply HM. apply tms_cons; auto. }
  intros n2 Hn2. destruct singles as [|x l]; [apply HS; exact Hn2|]. eapply pp_bind; [apply HM; apply tms_one; exact Hn2|]. intros flat Hf.
  eapply pp_bind; [apply HX; [exact Hf|exact P1]|]. intros st Hst. eapply pp_bind; [apply HN; exact Hst|]. intros [g|e] Hg; [|apply pq_bad].
  apply pq_good. apply safe_constrained; [exact Hg|]. intros l0 k t e x0 [X|[]]. discriminate X.
Qed.
Lemma pq_ifBody : forall f p b, tm ms p -> tms ms (onode b) -> pq (parseIfBody E recN mrg f p b) osafe.
Proof.
  intros f p [b|] Hp Hb; cbn [parseIfBody]; [|apply pp_ret; intros g X; discriminate X].
  assert (Hb' : tm ms b) by (apply Hb; left; reflexivity). eapply pp_bind; [apply HM; apply two_tm; auto|]. intros m Hm.
  eapply pp_bind; [apply pq_inScope; exact Hm|]. intros [g|e] Hg; [apply pp_ret; intros g' X; injection X as <-; exact Hg|].
  apply pp_run; [auto with anydb|]. apply pp_ret. intros g X. discriminate X.
Qed.
Lemma pq_compileIf : forall n f st, tm ms n -> tms ms (ifs st) -> pq (compileIf E recN mrg n f st) (okErr (fun x => osafe (fst (snd x)) /\ osafe (snd (snd x)))).
Proof.
  intros n f [p c t e] Hn Hs. unfold ifs in Hs. cbn [ifIf ifThen ifElse] in Hs. apply tms_app in Hs. destruct Hs as [_ Hs]. apply tms_app in Hs. destruct Hs as [Ht He].
  unfold compileIf. cbn [ifIf ifThen ifElse]. destruct c as [c|]; [|apply pq_bad].
  assert (G : pq (let* s := pget in let* k := compileNode E c (pPath s ++ "/" ++ f) in
          match k with Bad e => bad e | Good eff => let* t := parseIfBody E recN mrg "/then" n t in let* e := parseIfBody E recN mrg "/else" n e in good (eff, (t, e)) end)
        (okErr (fun x => osafe (fst (snd x)) /\ osafe (snd (snd x))))).
  { eapply pp_bind; [apply pp_get|]. intros s _. eapply pp_bind; [apply any_compile|]. intros [k|x] _; [|apply pq_bad].
    eapply pp_bind; [apply pq_ifBody; auto|]. intros t' T'. eapply pp_bind; [apply pq_ifBody; auto|]. intros e' E'. apply pq_good. auto. }
  destruct t, e; try exact G. apply pq_bad.
Qed.
Lemma pq_compileIfs : forall n l i, tm ms n -> tms ms (flat_map ifs l) ->
  pq (compileIfs E recN mrg i n l) (fun cs => forall k t e x, In (k, (t, e)) cs -> t = Some x \/ e = Some x -> safe x).
Proof.
  induction l as [|st l IH]; intros i Hn Hl; cbn [compileIfs]; [apply pp_ret; intros k t e x []|]. cbn [flat_map] in Hl. apply tms_app in Hl. destruct Hl as [Hs Hl].
  eapply pp_bind; [apply pq_compileIf; auto|]. intros [[k [t e]]|x] Hk.
  - eapply pp_bind; [apply IH; auto|]. intros cs Hcs. apply pp_ret. destruct Hk as [T1 T2]. cbn [fst snd] in T1, T2.
    intros k' t' e' x' [X|X] Y; [|exact (Hcs k' t' e' x' X Y)]. injection X as <- <- <-. destruct Y as [->| ->]; [apply T1|apply T2]; reflexivity.
  - apply pp_run; [auto with anydb|apply IH; auto].
Qed.
Lemma pq_if : forall n, tm ms n -> pq (parseIf E recN recS mrg n) eSafe.
Proof.
  intros n Hn. pose proof Hn as Kn. apply tm_fields in Hn. destruct Hn as [_ F]. unfold eachField in F. unfold parseIf.
  eapply pp_bind; [apply pp_get|]. intros s _. cbv zeta.
  set (fs := (sMergedIf n ++ match sIf n with Some _ => [newIf n (pPath s)] | None => [] end)%list).
  assert (Hfs : tms ms (flat_map ifs fs)).
  { unfold fs. rewrite flat_map_app. apply tms_app. split; [tauto|]. destruct (sIf n) as [c|] eqn:Ei; [|apply tms_nil].
    cbn [flat_map]. unfold ifs, newIf. cbn [ifIf ifThen ifElse]. rewrite Ei. rewrite !tms_app. pose proof (tms_nil ms). tauto. }
  clearbody fs. assert (Hn' : tm ms (set_sIf None (set_sThen None (set_sElse None (set_sMergedIf [] n))))) by (setter Kn).
  set (n' := set_sIf _ _) in *. clearbody n'. eapply pp_bind; [apply HS; exact Hn'|]. intros [g|e] Hg; [|apply pq_bad].
  destruct fs as [|f0 fr]; [apply pq_good; exact Hg|]. eapply pp_bind; [apply pq_compileIfs; auto|]. intros cs Hcs.
  assert (G : pq (good (GConstrained g [CIf cs])) eSafe).
  { apply pq_good. apply safe_constrained; [exact Hg|]. intros l k t e x [X|[]]. injection X as <-. apply Hcs. }
  destruct cs; [|exact G]. apply pp_run; [auto with anydb|apply pq_good; exact Hg].
Qed.
Lemma pq_schema : forall n, tm ms n -> pq (schemaStep E recN recS mrg nots n) eSafe.
Proof.
  intros n Hn. unfold schemaStep. destruct (unsupported n); [apply pq_bad|]. destruct (sRef n); [apply pq_reference|].
  destruct (sAllOf n) eqn:A; [apply pq_allOf; auto|]. destruct (_ || _); [apply pq_combination; auto|]. destruct (_ || _); [apply pq_not; auto|].
  destruct (_ || _); [apply pq_if; auto|].
  assert (G : pq match sConst n with Some v => parseConst E n v | None =>
    match (match sType n with Some t => mtMultiple t | None => None end) with
    | Some ts => parseMultiple E recN mrg ts n
    | None =>
      match sType n with
      | Some t => if negb (String.eqb (mtSingle t) "") then parseType E recN mrg (mtSingle t) n
                  else if String.eqb (inferType n) "unknown" then parseMultiple E recN mrg typeAll n else parseType E recN mrg (inferType n) n
      | None => if String.eqb (inferType n) "unknown" then parseMultiple E recN mrg typeAll n else parseType E recN mrg (inferType n) n
      end end end eSafe).
  { destruct (sConst n); [apply pq_const|]. destruct (tm_lc ms n Hn) as (T & _). destruct (sType n) as [t|].
    - destruct (mtMultiple t) as [ts|] eqn:M; [apply pq_multiple; auto; intros ->; exact (T t eq_refl M)|].
      destruct (negb _); [apply pq_type; auto|]. destruct (String.eqb _ _); [apply pq_multiple; auto; discriminate|apply pq_type; auto].
    - destruct (String.eqb _ _); [apply pq_multiple; auto; discriminate|apply pq_type; auto]. }
  destruct (sEnum n) as [[|v l]|]; [exact G|apply pq_enum|exact G].
Qed.
Lemma pq_node : forall n, tm ms n -> pq (nodeStep E recS n) eSafe.
Proof.
  intros n Hn. unfold nodeStep. eapply pp_bind; [apply pp_get|]. intros s _. apply pp_run; [auto with anydb|]. eapply pp_bind with (R := eSafe).
  - destruct (pxMaxDepth E <? pDepth s + 1); [apply pq_bad|]. apply pp_run; [apply pp_mod; intros []; auto|].
    eapply pp_bind; [apply HS; exact Hn|]. intros r Hr. apply pp_run; [destruct (isBad r); auto with anydb|]. cbv zeta. pose proof (orNull_safe r Hr) as Hg.
    apply pp_run; [destruct (sId n); [apply any_addIdRef; exact Hg|auto with anydb]|]. apply pp_run; [apply any_addRef; exact Hg|].
    destruct (sConstraints n); [|apply pp_ret; exact Hr]. apply pq_good. apply safe_constrained; [exact Hg|]. intros l k t e x [X|[]]. discriminate X.
  - intros r Hr. eapply pp_bind; [apply pp_get|]. intros s' _. apply pp_run; [auto with anydb|]. apply pp_ret. exact Hr.
Qed.
End Parse.

Theorem parse_safe : forall f b n, tm ms n -> pq (parseF E f b n) eSafe.
Proof.
  induction f as [|f IH]; intros b n Hn; cbn [parseF]; [intros s a s' _ H; discriminate H|]. destruct b.
  - apply pq_schema; auto.
    + intros l Hl. apply merge_tame; auto.
    + intros m l Hm Hl. apply nots_safe; auto.
  - apply pq_node; auto.
Qed.
Lemma pq_defs : forall fuel path l, tms ms (map snd l) -> pq (parseDefs E fuel path l) any.
Proof.
  induction l as [|[k n] l IH]; intros Hl; cbn [parseDefs]; [auto with anydb|]. cbn [map snd] in Hl. apply tms_cons in Hl. destruct Hl as [Hn Hl].
  eapply pp_bind; [apply pq_inScope; [|exact Hn]; intros m Hm; apply parse_safe; exact Hm|]. intros r _. eapply pp_bind; [exact (IH Hl)|]. intros gs _. auto with anydb.
Qed.
Lemma pq_root : forall fuel n, tm ms n -> pq (parseRoot E fuel n) eSafe.
Proof.
  intros fuel n Hn. pose proof Hn as Kn. apply tm_fields in Hn. destruct Hn as [_ F]. unfold eachField in F. unfold parseRoot.
  eapply pp_bind; [apply pq_defs; apply tms_omaps; tauto|]. intros _ _. eapply pp_bind; [apply pq_defs; apply tms_omaps; tauto|]. intros _ _.
  apply parse_safe. exact Kn.
Qed.
Lemma pq_next : forall fuel id rest, pq (parseNext E fuel id rest) any.
Proof.
  intros fuel id rest. unfold parseNext. apply pp_run; [apply pp_mod; intros []; auto|]. eapply pp_bind; [apply pp_resolveDocument; exact Hfetch|].
  intros d Hd. eapply pp_bind with (R := any).
  - destruct d as [n|e]; [|auto with anydb]. apply pp_run; [apply pp_mod; intros []; auto|]. eapply pp_bind; [apply pq_root; exact Hd|]. intros r _. auto with anydb.
  - intros [] _; auto with anydb.
Qed.
Lemma pq_drain : forall fuel k, pq (drain E fuel k) any.
Proof.
  induction k as [|k IH]; cbn [drain]; [apply any_lift|]. eapply pp_bind; [apply pp_get|]. intros s _. destruct (pQueue s); [auto with anydb|].
  apply pp_run; [apply pq_next|exact IH].
Qed.
Theorem doc_safe : forall fuel parsing rootId n r s', tm ms n -> parseDoc E fuel parsing rootId n = Ok (r, s') -> eSafe r /\ refsSafe (pRefs s').
Proof.
  intros fuel parsing rootId n r s' Hn H. unfold parseDoc in H.
  assert (G : pq (let* r := parseRoot E fuel n in run* drain E fuel fuel in pret r) eSafe).
  { eapply pp_bind; [apply pq_root; exact Hn|]. intros x Hx. apply pp_run; [apply pq_drain|]. apply pp_ret. exact Hx. }
  assert (I0 : inv ms refsSafe (initP E parsing rootId n)).
  { split; [|intros d m p g X; cbn [initP pRefs assoc] in X; discriminate X]. intros d m. cbn [initP pDocs assoc].
    destruct (String.eqb d rootId); intros X; [injection X as <-; exact Hn|discriminate X]. }
  destruct (G _ _ _ I0 H) as [[_ I2] Hr]. auto.
Qed.
End NoPanic.

(* everything a generation can reach *)
Lemma reach_safe : forall GE R g, eRefs GE = R -> safe GE g -> refsSafe GE R -> forall g', reach GE g g' -> safe GE g'.
Proof.
  intros GE R g ER Hg HR g' H. induction H.
  - exact Hg.
  - intros d D. apply (IHreach Hg). eapply desc_step; eauto.
  - unfold lookup in H0. rewrite ER in H0. destruct (assoc doc R) as [m|] eqn:A; [|discriminate]. eapply HR; eauto.
Qed.
Lemma representable_child : forall g c, representable g = true -> child c g -> representable c = true.
Proof.
  intros g c R C. destruct C; cbn [representable] in R; rewrite ?andb_true_iff, ?forallb_forall in R; auto;
  try (apply (proj2 R); assumption); try tauto.
  { destruct R as [[[[R _] _] _] _]. exact (R _ H). }
  - destruct R as [[R _] _]. exact (R _ H).
  - destruct R as [[_ R] _]. exact (R _ H).
  - destruct R as [_ R]. pose proof (R _ H) as X. cbn beta iota in X. rewrite forallb_forall in X. specialize (X _ H0). cbn [fst snd] in X. rewrite andb_true_iff in X. tauto.
  - destruct R as [_ R]. pose proof (R _ H) as X. cbn beta iota in X. rewrite forallb_forall in X. specialize (X _ H0). cbn [fst snd] in X. rewrite andb_true_iff in X. tauto.
Qed.
Lemma reach_representable : forall GE g, representable g = true -> (forall d p x, lookup GE d p = Some x -> representable x = true) ->
  forall g', reach GE g g' -> representable g' = true.
Proof. intros GE g Hg HL g' H. induction H; auto; [eapply representable_child; [|eassumption]; auto|eapply HL; eauto]. Qed.
Theorem no_panic : forall GE PE ms fuel parsing rootId n g s',
  smallOptions (eOpts GE) -> (forall p d w, eRegen GE p d <> Panic w) ->
  chain ms -> tame ms n -> (forall p d m, pxFetch PE p d = Some m -> tame ms m) ->
  parseDoc PE fuel parsing rootId n = Ok (Good g, s') -> eRefs GE = pRefs s' ->
  representable g = true -> (forall d p x, lookup GE d p = Some x -> representable x = true) ->
  forall fuel' st w, generate GE fuel' g st <> Panic w.
Proof.
  intros GE PE ms fuel parsing rootId n g s' HO HR HC HT HF HP HE Rg0 HL fuel' st w.
  destruct (doc_safe GE HO ms HC PE (fun p d m X => tame_tm ms m (HF p d m X)) fuel parsing rootId n (Good g) s' (tame_tm ms n HT) HP) as [Hg Hr].
  apply generate_no_panic; [exact HR|]. intros g' Rg. pose proof (reach_safe GE _ g HE Hg Hr g' Rg g' (desc_refl g')) as W.
  pose proof (reach_representable GE g Rg0 HL g' Rg) as N.
  destruct g'; cbn [wf0 wf1 representable] in *; auto; (split; [exact W|]); apply andb_true_iff in N; destruct N as [N _]; apply Z.ltb_lt; exact N.
Qed.
