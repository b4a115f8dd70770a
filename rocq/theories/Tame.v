(* Moderate keywords and non-empty lists of types, at every depth of a schema without references, survive
   merging and negation. *)
From Coq Require Import ZArith Reals List String Ascii Bool Lia.
From Verif Require Import Base Float64 Json Schema NodeFacts Util Number Gen Codec PState PFacts RefPath Merge NotMerge Parse ParseKeep MergeFacts MergeProps FuelMono Terminate FloatFacts CodecFacts NumberFacts NumberSafe HcfFacts Rewrite SpecPanic.
From Coq Require Import Reals.
From Flocq Require Import Core BinarySingleNaN.
Import ListNotations.
Open Scope string_scope.
Open Scope Z_scope.

Definition zin (a b : Z) (o : option Z) : Prop := forall k, o = Some k -> a <= k <= b.
Definition zle (b : Z) (o : option Z) : Prop := forall k, o = Some k -> k <= b.
Definition vv : Z := 2 ^ 60.
Definition okTypes (o : option multipleType) : Prop := forall t, o = Some t -> mtMultiple t <> Some [].

Section Tame.
Variable ms : f64 -> Prop.
Hypothesis Hchain : chain ms.

(* the local condition, a little wider than tameNode so that negation preserves it *)
Definition moderate (n : schemaNode) : Prop :=
  okTypes (sType n) /\
  zin (- vv) (vv + 2) (sMinItems n) /\ zin (- vv - 1) vv (sMaxItems n) /\
  zin (- vv - 1) (vv + 2) (sMinContains n) /\ zle vv (sMaxContains n) /\
  zin (- vv) (vv + 2) (sMinProperties n) /\ zle vv (sMaxProperties n) /\
  obnd bigB (sMinimum n) /\ obnd bigB (sMaximum n) /\ obnd bigB (sExclusiveMinimum n) /\ obnd bigB (sExclusiveMaximum n) /\
  (forall m, sMultipleOf n = Some m -> ms m).
Lemma tameNode_moderate : forall n, tameNode ms n -> moderate n.
Proof.
  intros n (A & B & C & D). unfold moderate, zin, zle, vv.
  assert (F : forall o, In o [sMinimum n; sMaximum n; sExclusiveMinimum n; sExclusiveMaximum n] -> obnd bigB o).
  { intros [b|] Hb; cbn [obnd]; auto. exact (C b Hb). }
  split; [exact A|].
  repeat (split; [first [intros k Hk; assert (- 2 ^ 60 <= k <= 2 ^ 60) by (apply B; rewrite <- Hk; cbn [In]; tauto); lia|apply F; cbn [In]; tauto]|]).
  exact D.
Qed.
Lemma moderate_empty : moderate emptyNode.
Proof. unfold moderate, okTypes, zin, zle. repeat split; try discriminate; exact I. Qed.

Lemma zin_max : forall a b o p, zin a b o -> zin a b p -> zin a b (maxIntPtr o p).
Proof. intros a b [x|] [y|] Ho Hp; cbn [maxIntPtr]; auto. destruct (x <? y); auto. Qed.
Lemma zin_min : forall a b o p, zin a b o -> zin a b p -> zin a b (minIntPtr o p).
Proof. intros a b [x|] [y|] Ho Hp; cbn [minIntPtr]; auto. destruct (y <? x); auto. Qed.
Lemma zle_min : forall b o p, zle b o -> zle b p -> zle b (minIntPtr o p).
Proof. intros b [x|] [y|] Ho Hp; cbn [minIntPtr]; auto. destruct (y <? x); auto. Qed.
Lemma okTypes_merge : forall a b, okTypes a -> okTypes b -> okTypes (mergeTypes a b).
Proof.
  intros a [[s m]|] Ha Hb; cbn [mergeTypes]; auto. cbn [mtSingle mtMultiple]. intros t E. injection E as <-.
  destruct (negb _); [discriminate|]. destruct m as [[|x r]|]; cbn [mtMultiple]; try discriminate.
  - exfalso. exact (Hb _ eq_refl eq_refl).
  - destruct a as [a|]; cbn [get_or]; [exact (Ha _ eq_refl)|discriminate].
Qed.
Lemma ms_hcf : forall a b, (forall m, a = Some m -> ms m) -> (forall m, b = Some m -> ms m) -> forall m, findHcf a b = Some m -> ms m.
Proof.
  destruct Hchain as [C1 C2]. apply hcf_chain.
  - intros m Hm. destruct (C1 m Hm) as [F [B _]]. split; [exact F|exact B].
  - intros a b Ha Hb. destruct (C2 a b Ha Hb) as [k [K|K]]; [left|right]; exists k; exact K.
Qed.
Lemma moderate_into : forall rec m n s m' s', moderate m -> moderate n -> mergeInto rec m n s = Ok (m', s') -> moderate m'.
Proof.
  intros rec m n s m' s' Hm Hn H. fields H. clear -Em Hm Hn Hchain.
  destruct Hm as (M1&M2&M3&M4&M5&M6&M7&M8&M9&M10&M11&M12), Hn as (N1&N2&N3&N4&N5&N6&N7&N8&N9&N10&N11&N12).
  subst m'. unfold moderate.
  cbn [sType sMinItems sMaxItems sMinContains sMaxContains sMinProperties sMaxProperties sMinimum sMaximum sExclusiveMinimum sExclusiveMaximum sMultipleOf].
  split; [apply okTypes_merge; assumption|].
  split; [apply zin_max; assumption|]. split; [apply zin_min; assumption|]. split; [apply zin_max; assumption|]. split; [apply zle_min; assumption|].
  split; [apply zin_max; assumption|]. split; [apply zle_min; assumption|].
  split; [apply fmax_bnd; assumption|]. split; [apply fmin_bnd; assumption|]. split; [apply fmax_bnd; assumption|]. split; [apply fmin_bnd; assumption|].
  apply ms_hcf; assumption.
Qed.

(* moderate at every depth *)
Definition lc (n : schemaNode) : Prop := moderate n.
Definition tm (n : schemaNode) : Prop := forall m, within n m -> lc m.
Definition tms (l : list schemaNode) : Prop := forall c, In c l -> tm c.
Lemma tm_sub : forall n c, tm n -> In c (subnodes n) -> tm c.
Proof. intros n c H Hc m Hm. apply H. eapply within_step; eauto. Qed.
Lemma tm_intro : forall n, lc n -> (forall c, In c (subnodes n) -> tm c) -> tm n.
Proof. intros n H Hc m Hm. destruct Hm as [n|n c d Hin Hd]; auto. exact (Hc _ Hin _ Hd). Qed.
Lemma tm_lc : forall n, tm n -> lc n.
Proof. intros n H. apply H. apply within_refl. Qed.
Lemma tame_tm : forall n, tame ms n -> tm n.
Proof. intros n T m Hm. apply tameNode_moderate. exact (T m Hm). Qed.
Lemma tms_app : forall a b, tms (a ++ b) <-> tms a /\ tms b.
Proof.
  intros a b. unfold tms. split.
  - intros H. split; intros c Hc; apply H; apply in_or_app; auto.
  - intros [Ha Hb] c Hc. apply in_app_or in Hc. destruct Hc; auto.
Qed.
Lemma tms_cons : forall x l, tms (x :: l) <-> tm x /\ tms l.
Proof. intros. unfold tms. split; [intros H; split; [apply H; left; auto|intros; apply H; right; auto]|intros [A B] c [<-|Hc]; auto]. Qed.
Lemma tms_nil : tms [].
Proof. intros c []. Qed.
Lemma tm_fields : forall n, tm n <-> lc n /\ eachField tms n.
Proof.
  intros n. transitivity (lc n /\ tms (subnodes n)).
  - split; [intros H; split; [apply tm_lc; auto|intros c; apply tm_sub; auto]|intros [A B]; apply tm_intro; auto].
  - unfold subnodes, eachField. rewrite !tms_app. cbn beta. tauto.
Qed.
Lemma tm_empty : tm emptyNode.
Proof. apply tm_intro; [apply moderate_empty|]. intros c []. Qed.
Lemma two_tm : forall a b, tm a -> tm b -> tms [a; b].
Proof. intros a b Ha Hb c [<-|[<-|[]]]; auto. Qed.


(* ------------------------------------------------------------------ rewriting references *)
Lemma fofZ_rnd : forall z, finite (fofZ z) = true -> B2R (fofZ z) = rnd (IZR z).
Proof.
  intros z F. pose proof (binary_normalize_correct 53 1024 prec53 emax1024 mode_NE z 0 false) as C.
  cbv zeta in C. unfold F2R in C. simpl Fexp in C. simpl Fnum in C. rewrite Rmult_1_r in C.
  destruct (Rlt_bool _ _) eqn:L; [destruct C as (A & _); exact A|].
  exfalso. change (B2SF (fofZ z) = binary_overflow 53 1024 mode_NE (Rlt_bool (IZR z) 0)) in C.
  destruct (fofZ z); try discriminate F; cbn in C; destruct (Rlt_bool (IZR z) 0); discriminate C.
Qed.
Lemma trunc_rnd : forall z, finite (fofZ z) = true -> Btrunc (fofZ z) = Ztrunc (rnd (IZR z)).
Proof.
  intros z F. apply eq_IZR. rewrite Btrunc_correct by exact emax1024. rewrite (fofZ_rnd z F). unfold round, F2R, scaled_mantissa, cexp, FIX_exp. cbn. rewrite !Rmult_1_r. reflexivity.
Qed.
Lemma rnd_vv : rnd (IZR (vv + 2)) = IZR vv /\ rnd (IZR (- vv - 1)) = IZR (- vv).
Proof.
  assert (A : forall a b, Z.abs b = 2 ^ 60 -> finite (fofZ a) = true -> B2SF (fofZ a) = B2SF (fofZ b) -> rnd (IZR a) = IZR b).
  { intros a b Hb Fa Eab. apply B2SF_inj in Eab. rewrite <- (fofZ_rnd a Fa), Eab. rewrite fofZ_rnd by (rewrite <- Eab; exact Fa).
    apply rnd_id. assert (D : IZR b = bpow radix2 60 \/ IZR b = (- bpow radix2 60)%R).
    { change (bpow radix2 60) with (IZR (2 ^ 60)). rewrite <- opp_IZR. destruct (Z.abs_spec b) as [[? K]|[? K]]; [left|right]; f_equal; lia. }
    assert (Fb : F64 (bpow radix2 60)). { apply generic_format_bpow. rewrite fexp64_FLT. unfold FLT_exp. lia. }
    destruct D as [-> | ->]; auto. now apply generic_format_opp. }
  split; apply A; try reflexivity; vm_compute; reflexivity.
Qed.
Lemma int_image_in : forall z, finite (fofZ z) = true -> - vv - 1 <= z -> - vv <= Btrunc (fofZ z).
Proof.
  intros z F H. rewrite (trunc_rnd z F). rewrite <- (Ztrunc_IZR (- vv)). apply Ztrunc_le. rewrite <- (proj2 rnd_vv). apply rnd_le. apply IZR_le. exact H.
Qed.
Lemma int_image_le : forall z, finite (fofZ z) = true -> z <= vv + 2 -> Btrunc (fofZ z) <= vv.
Proof.
  intros z F H. rewrite (trunc_rnd z F). rewrite <- (Ztrunc_IZR vv). apply Ztrunc_le. rewrite <- (proj1 rnd_vv). apply rnd_le. apply IZR_le. exact H.
Qed.
Lemma bnd_finite : forall B f, bnd B f -> finite f = true.
Proof. intros B f [H _]. rewrite finite_is_finite. exact H. Qed.
Lemma moderate_image : forall RR n n', moderate n -> image RR n n' -> moderate n'.
Proof.
  intros RR n n' (M1&M2&M3&M4&M5&M6&M7&M8&M9&M10&M11&M12) I. destruct (image_fields RR n n' I) as [_ L]. unfold leafImages in L.
  destruct L as (L1&L2&L3&L4&L5&L6&L7&L8&L9&L10&L11&L12).
  assert (Z1 : forall a b o o', intImage o o' -> - vv - 1 <= a <= - vv -> vv <= b <= vv + 2 -> zin a b o -> zin a b o').
  { intros a b o o' Hi Ha Hb Ho k Hk. destruct (Hi k Hk) as (z & Hz & F & ->). destruct (Ho z Hz) as [A B].
    pose proof (int_image_in z F ltac:(lia)). pose proof (int_image_le z F ltac:(lia)). lia. }
  assert (Z2 : forall o o', intImage o o' -> zle vv o -> zle vv o').
  { intros o o' Hi Ho k Hk. destruct (Hi k Hk) as (z & Hz & F & ->). pose proof (Ho z Hz). apply int_image_le; auto. lia. }
  assert (F1 : forall o o', floatImage o o' -> obnd bigB o -> obnd bigB o').
  { intros o [f'|] Hf Ho; [|exact Logic.I]. destruct (Hf f' eq_refl) as (f & -> & Ef). cbn [obnd] in *. rewrite (Ef (bnd_finite _ _ Ho)). exact Ho. }
  unfold moderate.
  split; [exact (L1 M1)|]. assert (H0 : - vv - 1 <= - vv <= - vv /\ - vv - 1 <= - vv - 1 <= - vv /\ vv <= vv <= vv + 2 /\ vv <= vv + 2 <= vv + 2) by (unfold vv; lia).
  destruct H0 as (A1 & A2 & B1 & B2).
  split; [exact (Z1 _ _ _ _ L2 A1 B2 M2)|]. split; [exact (Z1 _ _ _ _ L3 A2 B1 M3)|]. split; [exact (Z1 _ _ _ _ L4 A2 B2 M4)|]. split; [exact (Z2 _ _ L5 M5)|].
  split; [exact (Z1 _ _ _ _ L6 A1 B2 M6)|]. split; [exact (Z2 _ _ L7 M7)|].
  split; [exact (F1 _ _ L8 M8)|]. split; [exact (F1 _ _ L9 M9)|]. split; [exact (F1 _ _ L10 M10)|]. split; [exact (F1 _ _ L11 M11)|].
  intros m' Hm. destruct (L12 m' Hm) as (m & Em & Ef). pose proof (M12 m Em) as Mm.
  rewrite Ef; [exact Mm|]. rewrite finite_is_finite. apply (proj1 Hchain m Mm).
Qed.
Theorem rewrite_tame : forall E s n n', tm n -> rewriteNode E s n = Good n' -> tm n'.
Proof.
  intros E s n n' H R m' Hm. apply rewrite_image in R. destruct (within_image _ n' m' Hm n R) as [->|(m & Hw & Im)]; [apply moderate_empty|].
  exact (moderate_image _ m m' (H m Hw) Im).
Qed.
Lemma resolveSub_tame : forall f o p n, tms (onode o) -> resolveSubF f o p = Ok (Good n) -> tm n.
Proof.
  induction f as [|f IH]; intros o p n Ho H; cbn [resolveSubF] in H; [discriminate H|]. destruct o as [c|]; [|discriminate H].
  assert (Hc : tm c) by (apply Ho; left; auto). clear Ho. destruct (refToken p) as [part rest]. destruct (String.eqb rest ""); [injection H as <-; exact Hc|].
  pose proof Hc as Kc. apply tm_fields in Hc. destruct Hc as [Lc Fc].
  assert (P1 : forall l path, tms (omaps l) -> refProperty (resolveSubF f) l path = Ok (Good n) -> tm n).
  { intros [l|] path Hl R; cbn [refProperty] in R; [|discriminate R]. destruct (refToken path) as [name r]. destruct (assoc name l) as [y|] eqn:A; [|discriminate R].
    apply (IH (Some y) r n); auto. intros z [<-|[]]. apply Hl. cbn [omaps]. apply assoc_In in A. apply (in_map snd) in A. exact A. }
  assert (P2 : forall l path, tms (olist l) -> refSlice (resolveSubF f) l path = Ok (Good n) -> tm n).
  { intros [l|] path Hl R; cbn [refSlice] in R; [|discriminate R]. destruct (refToken path) as [name r]. destruct (atoi name) as [i|]; [|discriminate R].
    destruct (_ || _); [discriminate R|]. destruct (nth_error l (Z.to_nat i)) as [y|] eqn:A; [|discriminate R].
    apply (IH (Some y) r n); auto. intros z [<-|[]]. apply Hl. cbn [olist]. eapply nth_error_In; eauto. }
  assert (P3 : forall d path, tms (nofs d) -> refNof (resolveSubF f) d path = Ok (Good n) -> tm n).
  { intros [[d b]|] path Hl R; cbn [refNof nofFalse nofSchema] in R; [|discriminate R]. destruct b; [discriminate R|]. apply (IH d path n); auto. }
  assert (P4 : forall d path, tms (itemss d) -> refItems (resolveSubF f) d path = Ok (Good n) -> tm n).
  { intros [[d l b]|] path Hl R; cbn [refItems itNode itNodes] in R; [|discriminate R]. cbn [itemss itNode itNodes] in Hl. apply tms_app in Hl. destruct Hl as [Hd Hl].
    destruct (isNumber _); [apply (P2 l path); auto|apply (IH d path n); auto]. }
  unfold eachField in Fc. destruct Fc as (F1&F2&F3&F4&F5&F6&F7&F8&F9&F10&F11&F12&F13&F14&F15&F16&F17&F18&_).
  unfold refCase in H.
  repeat match type of H with (if ?b then _ else _) = _ => destruct b end;
  first [discriminate H
        |match type of H with
         | refProperty _ ?l _ = _ => exact (P1 l rest ltac:(assumption) H)
         | refSlice _ ?l _ = _ => exact (P2 l rest ltac:(assumption) H)
         | refNof _ ?l _ = _ => exact (P3 l rest ltac:(assumption) H)
         | refItems _ ?l _ = _ => exact (P4 l rest ltac:(assumption) H)
         | resolveSubF _ (Some c) _ = _ => apply (IH (Some c) rest n); [intros z [<-|[]]; exact Kc|exact H]
         | resolveSubF _ ?o _ = _ => apply (IH o rest n); [assumption|exact H]
         end].
Qed.

(* ------------------------------------------------------------------ merging, with the documents that references name *)
Section Walk.
Variable E : penv.
Hypothesis Hfetch : forall p d n, pxFetch E p d = Some n -> tm n.
(* any condition on the registered references *)
Variable refsOk : list (string * list (string * gen)) -> Prop.
Definition inv (s : pst) : Prop := (forall d n, assoc d (pDocs s) = Some n -> tm n) /\ refsOk (pRefs s).
Definition pp {A} (m : P A) (Q : A -> Prop) : Prop := forall s a s', inv s -> m s = Ok (a, s') -> inv s' /\ Q a.
Definition any {A} (a : A) : Prop := True.
Lemma pp_ret : forall A (a : A) (Q : A -> Prop), Q a -> pp (pret a) Q.
Proof. intros A a Q Ha s b s' I H. apply pret_ok in H. destruct H as [-> ->]. auto. Qed.
Lemma pp_bind : forall A B (m : P A) (k : A -> P B) (R : A -> Prop) (Q : B -> Prop), pp m R -> (forall a, R a -> pp (k a) Q) -> pp (pbind m k) Q.
Proof. intros A B m k R Q Hm Hk s b s' I H. apply pbind_ok in H. destruct H as (a & t & K & H). destruct (Hm _ _ _ I K) as [I' Ra]. exact (Hk a Ra _ _ _ I' H). Qed.
Lemma pp_weak : forall A (m : P A) (R Q : A -> Prop), pp m R -> (forall a, R a -> Q a) -> pp m Q.
Proof. intros A m R Q Hm HQ s a s' I H. destruct (Hm _ _ _ I H). auto. Qed.
Lemma pp_run : forall A B (m : P A) (k : P B) (Q : B -> Prop), pp m any -> pp k Q -> pp (pbind m (fun _ => k)) Q.
Proof. intros. eapply pp_bind; eauto. Qed.
Lemma pp_mod : forall f, (forall s, pDocs (f s) = pDocs s /\ pRefs (f s) = pRefs s) -> pp (pmod f) any.
Proof. intros f H s a s' I K. apply pmod_ok in K. subst s'. split; [|exact Logic.I]. destruct (H s) as [A B]. unfold inv. rewrite A, B. exact I. Qed.
Lemma pp_lift : forall A (r : res A) (Q : A -> Prop), (forall a, r = Ok a -> Q a) -> pp (plift r) Q.
Proof. intros A r Q HQ s a s' I H. unfold plift in H. destruct r; inversion H; subst. auto. Qed.
Lemma pp_get : pp pget inv.
Proof. intros s a s' I H. apply pget_ok in H. destruct H; subst. auto. Qed.
Lemma pp_addErrSub : forall a b, pp (addErrSub a b) any.
Proof. intros. apply pp_mod. intros []. auto. Qed.
Lemma pp_pushPath : forall a, pp (pushPath a) any.
Proof. intros. apply pp_mod. intros []. auto. Qed.
Lemma pp_popPath : forall a, pp (popPath a) any.
Proof. intros. apply pp_mod. intros []. auto. Qed.
Lemma pp_pushRes : forall a b, pp (pushRes a b) any.
Proof. intros. apply pp_mod. intros []. auto. Qed.
Lemma pp_popRes : pp popRes any.
Proof. intros. apply pp_mod. intros []. auto. Qed.
Lemma pp_setResolving : forall a, pp (setResolving a) any.
Proof. intros. apply pp_mod. intros []. auto. Qed.
Lemma pp_withDepth : forall a, pp (pmod (withDepth a)) any.
Proof. intros. apply pp_mod. intros []. auto. Qed.
Lemma pp_warnIf : forall b f, pp (warnIf b f) any.
Proof. intros [] f; [apply pp_addErrSub|apply pp_ret; exact I]. Qed.
Lemma pp_warnAll : forall l, pp (warnAll l) any.
Proof. induction l; cbn [warnAll]; [apply pp_ret; exact I|]. apply pp_run; [apply pp_addErrSub|auto]. Qed.

Definition okErr {A} (Q : A -> Prop) (r : err A) : Prop := match r with Good a => Q a | Bad _ => True end.
Lemma pp_resolveDocument : forall d, pp (resolveDocument E d) (okErr tm).
Proof.
  intros d s a s' I H. unfold resolveDocument in H. destruct (_ || _); [injection H as <- <-; split; [exact I|exact Logic.I]|].
  destruct (pxFetch E (pParsing s) (refDoc d)) as [n|] eqn:F.
  - apply pbind_ok in H. destruct H as (u & t & K & H). apply pret_ok in H. destruct H as [-> ->]. apply Hfetch in F.
    split; [|exact F]. apply pmod_ok in K. subst t. cbn [pDocs withLog]. destruct I as [I1 I2].
    destruct (assoc (refDoc d) (pDocs s)) eqn:A; (split; [|exact I2]); [exact I1|].
    cbn [pDocs withAliases withDone withDocs]. intros d0 n0 H0. destruct (string_dec d0 (refDoc d)) as [->|Hn].
    + rewrite assoc_massign_same in H0. injection H0 as <-. exact F.
    + rewrite assoc_massign_other in H0 by auto. exact (I1 _ _ H0).
  - injection H as <- <-. split; [exact I|exact Logic.I].
Qed.
Lemma resolveSub_ok : forall o p r, tms (onode o) -> resolveSub o p = Ok r -> okErr tm r.
Proof. intros o p [n|e] Ho H; cbn [okErr]; auto. eapply resolveSub_tame; eauto. Qed.
Lemma pp_resolvePath : forall ref, pp (resolvePath E ref) (okErr (fun x => tm (fst x))).
Proof.
  intros ref s a s' I H. unfold resolvePath in H. destruct (matchRef ref); [|injection H as <- <-; split; [exact I|exact Logic.I]].
  destruct (String.eqb (refDoc ref) "").
  - apply bind_ok in H. destruct H as (r & R & H). injection H as <- <-. split; [exact I|].
    assert (okErr tm r). { eapply resolveSub_ok; [|exact R]. destruct (assoc (scope s) (pDocs s)) eqn:A; [|apply tms_nil]. intros c [<-|[]]. exact (proj1 I _ _ A). }
    destruct r; auto.
  - destruct (resolveDocRef E s (refDoc ref) (refPath ref)) as [[d pt]|e]; [|injection H as <- <-; split; [exact I|exact Logic.I]].
    revert H. match goal with |- ?m s = _ -> _ => set (act := m) end. intros H.
    assert (G : pp act (okErr (fun x => tm (fst x)))).
    { subst act. eapply pp_bind with (R := okErr tm).
      - destruct (assoc d (pDocs s)) eqn:A; [apply pp_ret; exact (proj1 I _ _ A)|apply pp_resolveDocument].
      - intros [n|e] Hn; [|apply pp_ret; exact Logic.I]. eapply pp_bind with (R := okErr tm).
        + apply pp_lift. intros r. apply resolveSub_ok. intros c [<-|[]]. exact Hn.
        + intros [t|e] Ht; [|apply pp_ret; exact Logic.I]. apply pp_run; [apply pp_setResolving|apply pp_ret; exact Ht]. }
    exact (G _ _ _ I H).
Qed.
Lemma pp_followRefs : forall f seen ref, pp (followRefs E f seen ref) (okErr tm).
Proof.
  induction f as [|f IH]; intros seen ref; cbn [followRefs]; [intros s a s' _ H; discriminate H|].
  eapply pp_bind; [apply pp_resolvePath|]. intros [[n name]|e] Hn; cbn [okErr fst] in Hn.
  - destruct (mem_string name seen); [apply pp_run; [apply pp_addErrSub|apply pp_ret; exact I]|]. destruct (sRef n); [apply IH|apply pp_ret; exact Hn].
  - apply pp_run; [apply pp_addErrSub|apply pp_ret; exact I].
Qed.
Lemma pp_resolveReference : forall f ref, pp (resolveReference E f ref) (okErr tm).
Proof.
  intros f ref. unfold resolveReference. eapply pp_bind; [apply pp_followRefs|]. intros r Hr. eapply pp_bind with (R := okErr tm).
  - destruct r as [n|e]; [|apply pp_ret; exact I]. eapply pp_bind; [apply pp_get|]. intros s _.
    destruct (rewriteNode E s n) as [n'|e] eqn:W; [apply pp_ret; eapply rewrite_tame; eauto|apply pp_run; [apply pp_addErrSub|apply pp_ret; exact I]].
  - intros out Ho. eapply pp_bind; [apply pp_get|]. intros s _. apply pp_run; [apply pp_setResolving|apply pp_ret; exact Ho].
Qed.
Lemma tm_set_ref : forall n o, tm n -> tm (set_sRef o n).
Proof. intros n o H. apply tm_fields in H. apply tm_fields. exact H. Qed.
Lemma pp_resolveNodeRef : forall f n, tm n -> pp (resolveNodeRef E f n) (fun x => tm (fst x)).
Proof.
  intros f n Hn. unfold resolveNodeRef. destruct (sRef n) as [ref|]; [|apply pp_ret; exact Hn].
  eapply pp_bind; [apply pp_get|]. intros s _. destruct (resolveRef E s ref) as [[d p]|e].
  - destruct (hasResolved s d p); [apply pp_ret; exact Hn|]. eapply pp_bind; [apply pp_resolveReference|]. intros [t|e] Ht.
    + apply pp_run; [apply pp_pushRes|apply pp_ret; exact Ht].
    + apply pp_run; [apply pp_addErrSub|apply pp_ret]. apply tm_set_ref; auto.
  - apply pp_run; [apply pp_addErrSub|apply pp_ret]. apply tm_set_ref; auto.
Qed.

Section MergeTame.
Variable rec : list schemaNode -> P schemaNode.
Hypothesis Hrec : forall nodes, tms nodes -> pp (rec nodes) tm.
Lemma assign_tms' : forall k (v : schemaNode) l, tm v -> tms (map snd l) -> tms (map snd (massign k v l)).
Proof.
  induction l as [|[k' v'] l IH]; cbn [massign map snd]; intros Hv Hl; [apply tms_cons; auto|].
  apply tms_cons in Hl. destruct Hl. destruct (String.eqb k k'); cbn [map snd]; apply tms_cons; auto.
Qed.
Lemma assoc_tm' : forall k l n, tms (map snd l) -> assoc k l = Some n -> tm n.
Proof.
  induction l as [|[k' v] l IH]; cbn [assoc map snd]; intros n H A; [discriminate|]. apply tms_cons in H. destruct H as [Hv Hl].
  destruct (String.eqb k k'); [injection A as <-; auto|auto].
Qed.
Lemma mapLoop_tame : forall node merged, tms (map snd merged) -> tms (map snd node) -> pp (mergeMapLoop rec merged node) (fun r => tms (map snd r)).
Proof.
  induction node as [|[k v] node IH]; intros merged Hm Hn; cbn [mergeMapLoop map snd] in *; [apply pp_ret; auto|].
  apply tms_cons in Hn. destruct Hn as [Hv Hn]. destruct (assoc k merged) as [old|] eqn:A.
  - eapply pp_bind; [apply Hrec; apply two_tm; auto; eapply assoc_tm'; [|exact A]; auto|]. intros a Ha. apply IH; auto using assign_tms'.
  - apply IH; auto using assign_tms'.
Qed.
Lemma map_tame : forall a b, tms (omaps a) -> tms (omaps b) -> pp (mergeMap rec a b) (fun r => tms (omaps r)).
Proof.
  intros a b Ha Hb. unfold mergeMap. destruct b as [l|]; [|apply pp_ret; auto].
  replace (omaps a) with (map snd (get_or a [])) in * by (destruct a; reflexivity).
  eapply pp_bind; [apply mapLoop_tame; auto|]. intros r Hr. apply pp_ret. exact Hr.
Qed.
Lemma prefixLoop_tame : forall merged node, tms merged -> tms node -> pp (mergePrefixLoop rec merged node) tms.
Proof.
  induction merged as [|a ra IH]; intros [|b rb] Hm Hn; cbn [mergePrefixLoop]; try (apply pp_ret; auto; fail).
  apply tms_cons in Hm, Hn. destruct Hm as [Hma Hm], Hn as [Hna Hn]. eapply pp_bind; [apply Hrec; apply two_tm; auto|]. intros x Hx.
  eapply pp_bind; [apply IH; auto|]. intros y Hy. apply pp_ret. apply tms_cons; auto.
Qed.
Lemma prefix_tame : forall a b, tms (olist a) -> tms (olist b) -> pp (mergePrefix rec a b) (fun r => tms (olist r)).
Proof.
  intros a b Ha Hb. unfold mergePrefix. destruct b as [l|]; [|apply pp_ret; auto].
  replace (olist a) with (get_or a []) in * by (destruct a; reflexivity).
  eapply pp_bind; [apply prefixLoop_tame; auto|]. intros r Hr. apply pp_ret. exact Hr.
Qed.
Lemma items_tame : forall a b, tms (itemss a) -> tms (itemss b) -> pp (mergeItems rec a b) (fun r => tms (itemss r)).
Proof.
  intros a b Ha Hb. unfold mergeItems. destruct b as [[bn bl bd]|]; [|apply pp_ret; auto].
  cbn [itNode itDisallow]. destruct bn as [b|]; [|apply pp_ret; auto].
  assert (Hb' : tm b). { apply Hb. cbn. auto. }
  set (cur := get_or a (mkItems None None false)) in *.
  assert (Hc : itemss a = itemss (Some cur)). { unfold cur. destruct a; reflexivity. }
  rewrite Hc in *. clearbody cur. destruct cur as [cn cl cd]. cbn [itNode itNodes itDisallow].
  destruct (cd || bd). { apply pp_ret. apply tms_nil. }
  cbn [itemss itNode itNodes onode olist app] in Ha. destruct cn as [c|].
  - apply tms_cons in Ha. destruct Ha as [Hc1 Ha]. eapply pp_bind; [apply Hrec; apply two_tm; auto|]. intros x Hx. apply pp_ret.
    cbn [itemss itNode itNodes onode olist app]. apply tms_cons; auto.
  - apply pp_ret. cbn [itemss itNode itNodes onode olist app]. apply tms_cons; auto.
Qed.
Lemma nof_tame : forall a b, tms (nofs a) -> tms (nofs b) -> pp (mergeNof rec a b) (fun r => tms (nofs r)).
Proof.
  intros a b Ha Hb. unfold mergeNof. destruct b as [[bn bf]|]; [|apply pp_ret; auto].
  destruct a as [[an af]|]; [|apply pp_ret; auto]. cbn [nofFalse nofSchema].
  destruct af; [apply pp_ret; auto|]. destruct bf; [apply pp_ret; auto|].
  destruct an as [x|], bn as [y|]; try (apply pp_ret; auto; fail).
  cbn [nofs nofSchema onode] in *. apply tms_cons in Ha, Hb. destruct Ha as [Ha _], Hb as [Hb _]. eapply pp_bind; [apply Hrec; apply two_tm; auto|].
  intros z Hz. apply pp_ret. apply tms_cons; split; auto; apply tms_nil.
Qed.
Lemma ptr_tame : forall a b, tms (onode a) -> tms (onode b) -> pp (mergePtr rec a b) (fun r => tms (onode r)).
Proof.
  intros a b Ha Hb. unfold mergePtr. destruct a as [x|], b as [y|]; try (apply pp_ret; auto; fail).
  cbn [onode] in *. apply tms_cons in Ha, Hb. destruct Ha as [Ha _], Hb as [Hb _]. eapply pp_bind; [apply Hrec; apply two_tm; auto|].
  intros z Hz. apply pp_ret. apply tms_cons; split; auto; apply tms_nil.
Qed.
Lemma slice_tame : forall a b : option (list schemaNode), tms (olist a) -> tms (olist b) -> tms (olist (mergeSlicePtrs a b)).
Proof.
  intros a b Ha Hb. unfold mergeSlicePtrs. replace (olist a) with (get_or a []) in * by (destruct a; reflexivity).
  replace (olist b) with (get_or b []) in * by (destruct b; reflexivity).
  destruct (get_or a [] ++ get_or b [])%list eqn:El; cbn [olist]; [apply tms_nil|].
  rewrite <- El. apply tms_app; auto.
Qed.
Lemma nots_tame : forall m n, tms (onode (sNot m)) -> tms (sMergedNot m) -> tms (onode (sNot n)) -> tms (sMergedNot n) ->
  tms (onode (sNot (mergeNot m n))) /\ tms (sMergedNot (mergeNot m n)).
Proof.
  intros m n A B C D. unfold mergeNot.
  destruct (sNot n) as [x|], (sNot m) as [y|] eqn:Em, (sMergedNot m) as [|p l] eqn:El, (sMergedNot n) as [|q k];
    cbn [sNot sMergedNot set_sNot set_sMergedNot onode]; rewrite ?Em, ?El; cbn [sNot sMergedNot set_sNot set_sMergedNot onode]; rewrite ?Em, ?El;
    cbn [onode app] in *;
    repeat match goal with
    | H : tms (_ :: _) |- _ => apply tms_cons in H; destruct H
    end; split; rewrite ?tms_cons, ?tms_app, ?tms_cons, ?tms_app, ?tms_cons;
    auto using tms_nil; intuition (auto using tms_nil).
Qed.
Lemma ifs_tame : forall path m n, tms (flat_map ifs (sMergedIf m)) -> tms (flat_map ifs (sMergedIf n)) -> tms (onode (sIf n)) -> tms (onode (sThen n)) ->
  tms (onode (sElse n)) -> tms (flat_map ifs (sMergedIf (mergeIf path m n))).
Proof.
  intros path m n A B C D F. unfold mergeIf. cbn [set_sMergedIf sMergedIf]. destruct (sIf n) as [x|] eqn:Ei.
  - rewrite !flat_map_app. cbn [flat_map]. unfold ifs at 3. cbn [newIf ifIf ifThen ifElse]. rewrite Ei.
    rewrite !tms_app; auto 10 using tms_nil.
  - rewrite !flat_map_app. rewrite !tms_app; auto.
Qed.
Lemma into_tame : forall m n, tm m -> tm n -> pp (mergeInto rec m n) tm.
Proof.
  intros m n Hm Hn s m' s' I H. apply tm_fields in Hm, Hn. destruct Hm as [Lm Hm], Hn as [Ln Hn].
  pose proof (moderate_into rec m n s m' s' Lm Ln H) as LM.
  unfold eachField in Hm, Hn.
  destruct Hm as (M1&M2&M3&M4&M5&M6&M7&M8&M9&M10&M11&M12&M13&M14&M15&M16&M17&M18&M19&M20).
  destruct Hn as (N1&N2&N3&N4&N5&N6&N7&N8&N9&N10&N11&N12&N13&N14&N15&N16&N17&N18&N19&N20).
  fields H.
  assert (I1 : inv s1). { rewrite Hs1. destruct (snd _); [destruct s|]; exact I. }
  destruct (map_tame _ _ M1 N1 _ _ _ I1 H1) as [I2 Q1]. destruct (nof_tame _ _ M2 N2 _ _ _ I2 H2) as [I3 Q2].
  destruct (map_tame _ _ M3 N3 _ _ _ I3 H3) as [I4 Q3]. destruct (prefix_tame _ _ M6 N6 _ _ _ I4 H4) as [I5 Q4].
  destruct (items_tame _ _ M4 N4 _ _ _ I5 H5) as [I6 Q5]. destruct (nof_tame _ _ M7 N7 _ _ _ I6 H6) as [I7 Q6].
  destruct (nof_tame _ _ M8 N8 _ _ _ I7 H7) as [I8 Q7]. destruct (ptr_tame _ _ M5 N5 _ _ _ I8 H8) as [I9 Q8].
  assert (I10 : inv s'). { destruct H9 as [fl H9]. exact (proj1 (pp_warnAll _ _ _ _ I9 H9)). }
  clear H1 H2 H3 H4 H5 H6 H7 H8 H9 Hs1.
  pose proof (slice_tame _ _ M10 N10) as K1. pose proof (slice_tame _ _ M11 N11) as K2. pose proof (slice_tame _ _ M12 N12) as K3.
  pose proof (nots_tame m n M9 M20 N9 N20) as K4. pose proof (ifs_tame (pPath s9) m n M19 N19 N15 N16 N17) as K5.
  destruct K4 as (P12 & P13). rewrite <- Ent in *. rewrite <- Emn in *. rewrite <- Emi in *. split; [exact I10|].
  apply tm_fields. split; [exact LM|].
  clear LM. unfold eachField. subst m'. cbn [sProperties sAdditionalProperties sPatternProperties sItems sContains sPrefixItems
      sAdditionalItems sUnevaluatedItems sNot sAllOf sAnyOf sOneOf sDefs sDefinitions sIf sThen sElse sDependentSchemas sMergedIf sMergedNot].
  repeat (split; [assumption|]). assumption.
Qed.
Lemma residual_tame : forall m l, tm m -> sAllOf m = Some l -> tms (l ++ [set_sAllOf None m]).
Proof.
  intros m l Hm A. apply tms_app. apply tm_fields in Hm. destruct Hm as [R Hm]. split.
  - unfold eachField in Hm. rewrite A in Hm. cbn [olist] in Hm. tauto.
  - apply tms_cons. split; [|apply tms_nil]. apply tm_fields. split; [exact R|]. unfold eachField in *.
      cbn [set_sAllOf sProperties sAdditionalProperties sPatternProperties sItems sContains sPrefixItems
      sAdditionalItems sUnevaluatedItems sNot sAllOf sAnyOf sOneOf sDefs sDefinitions sIf sThen sElse sDependentSchemas sMergedIf sMergedNot].
      cbn [olist]. pose proof tms_nil. tauto.
Qed.
Lemma one_tame : forall f m n, tm m -> tm n -> pp (mergeOne E rec f m n) tm.
Proof.
  intros f m n Hm Hn. unfold mergeOne. eapply pp_bind; [apply pp_resolveNodeRef; exact Hn|]. intros [n1 resolved] Hn1. cbn [fst] in Hn1.
  eapply pp_bind with (R := tm).
  - destruct (sAllOf n1) as [subs|] eqn:A; [|apply pp_ret; auto]. destruct resolved; [|apply pp_ret; auto]. apply Hrec. apply residual_tame; auto.
  - intros n2 Hn2. eapply pp_bind; [apply into_tame; auto|]. intros r Hr. destruct resolved; [|apply pp_ret; auto].
    apply pp_run; [apply pp_popRes|]. eapply pp_bind; [apply pp_get|]. intros s _. apply pp_run; [apply pp_setResolving|apply pp_ret; auto].
Qed.
Lemma loop_tame : forall f nodes m, tm m -> tms nodes -> pp (mergeLoop E rec f m nodes) tm.
Proof.
  induction nodes as [|n r IH]; intros m Hm Hn; cbn [mergeLoop]; [apply pp_ret; auto|].
  apply tms_cons in Hn. destruct Hn as [Hn Hr]. eapply pp_bind; [apply one_tame; auto|]. intros m1 Hm1. apply IH; auto.
Qed.
Lemma flatten_tame : forall f m, tm m -> pp (flatten E rec f m) tm.
Proof.
  induction f as [|f IH]; intros m Hm; cbn [flatten]; [intros s a s' _ H; discriminate H|].
  destruct (sAllOf m) as [[|x l]|] eqn:A; try (apply pp_ret; auto; fail).
  eapply pp_bind; [apply pp_get|]. intros s _. destruct (pxMaxDepth E <? pDepth s + 1); [apply pp_ret; auto|].
  apply pp_run; [apply pp_withDepth|]. eapply pp_bind; [apply Hrec; apply residual_tame; auto|]. intros m1 Hm1.
  eapply pp_bind; [apply pp_get|]. intros s1 _. apply pp_run; [apply pp_withDepth|]. apply IH; auto.
Qed.
End MergeTame.
Theorem merge_tame : forall f nodes, tms nodes -> pp (merge E f nodes) tm.
Proof.
  induction f as [|f IH]; intros nodes Hn; cbn [merge]; [intros s a s' _ H; discriminate H|].
  eapply pp_bind; [apply loop_tame; auto using tm_empty|]. intros m Hm. apply flatten_tame; auto.
Qed.
End Walk.

(* ------------------------------------------------------------------ integer bounds under negation *)
Lemma minToNil_in : forall v b, v <= b -> zin (- vv) b (minToNil v).
Proof.
  intros v b H k Hk. unfold minToNil, nbMinInt in Hk. unfold vv. destruct (v <=? _) eqn:E; [discriminate|]. injection Hk as <-. apply Z.leb_gt in E. lia.
Qed.
Lemma maxToNil_in : forall v a, a <= v -> zin a vv (maxToNil v).
Proof.
  intros v a H k Hk. unfold maxToNil, nbMaxInt in Hk. unfold vv. destruct (_ <=? v) eqn:E; [discriminate|]. injection Hk as <-. apply Z.leb_gt in E. lia.
Qed.
Lemma maxToNil_le : forall v, zle vv (maxToNil v).
Proof. intros v k Hk. apply (maxToNil_in v v (Z.le_refl v) k Hk). Qed.
Lemma orZ : forall a b o d, zin a b o -> a <= d <= b -> a <= get_or o d <= b.
Proof. intros a b [x|] d H D; cbn [get_or]; auto. Qed.
(* minima of the node and of the negated node within [lo, vv+2], maxima below vv *)
Lemma boundsInt_in : forall lo mn mx nmn nmx a b w, - vv - 1 <= lo <= - vv ->
  zin lo (vv + 2) mn -> zle vv mx -> zin lo (vv + 2) nmn -> zle vv nmx -> boundsInt mn mx nmn nmx = (a, b, w) ->
  zin lo (vv + 2) a /\ zle vv b /\ (zin (lo - 1) vv mx -> zin (lo - 1) vv b).
Proof.
  intros lo mn mx nmn nmx a b w HL M1 M2 N1 N2 H.
  assert (Wide : forall v, v <= vv + 2 -> zin lo (vv + 2) (minToNil v)).
  { intros v Hv k Hk. destruct (minToNil_in v (vv + 2) Hv k Hk). lia. }
  assert (X1 : lo <= get_or mn nbMinInt <= vv + 2) by (apply orZ; auto; unfold nbMinInt, vv in *; lia).
  assert (Y1 : lo <= get_or nmn nbMinInt <= vv + 2) by (apply orZ; auto; unfold nbMinInt, vv in *; lia).
  assert (Y2 : match nmx with Some b => b + 1 | None => nbMaxInt end <= vv + 1).
  { destruct nmx as [k|]; [pose proof (N2 k eq_refl); lia|unfold nbMaxInt, vv; lia]. }
  assert (X2 : zin (lo - 1) vv mx -> zin (lo - 1) vv (maxToNil (get_or mx nbMaxInt))).
  { intros I. apply maxToNil_in. destruct mx as [k|]; cbn [get_or]; [apply (I k eq_refl)|unfold nbMaxInt, vv in *; lia]. }
  assert (D : zin (lo - 1) vv (maxToNil (get_or nmn nbMinInt - 1))) by (apply maxToNil_in; lia).
  assert (G : (let x1 := get_or mn nbMinInt in let x2 := get_or mx nbMaxInt in let y1 := get_or nmn nbMinInt in
          let y2 := match nmx with Some b => b + 1 | None => nbMaxInt end in
          if (y2 <? x1) || (x2 <? y1) then (minToNil x1, maxToNil x2, false)
          else if (y1 <=? x1) && (x2 <=? y2) then (mn, mx, true)
          else if (y1 <=? x1) && (y2 <? x2) then (minToNil (y2 + 1), maxToNil x2, false)
          else (minToNil x1, maxToNil (y1 - 1), false)) = (a, b, w) -> zin lo (vv + 2) a /\ zle vv b /\ (zin (lo - 1) vv mx -> zin (lo - 1) vv b)).
  { cbv zeta. clear H. intros H.
    destruct (_ || _). { injection H as <- <- _. split; [apply Wide; lia|]. split; [apply maxToNil_le|exact X2]. }
    destruct (_ && _). { injection H as <- <- _. auto. }
    destruct (_ && _); injection H as <- <- _; (split; [apply Wide; lia|]); (split; [apply maxToNil_le|auto]). }
  unfold boundsInt in H.
  assert (N : zin lo (vv + 2) None) by discriminate. assert (N' : zle vv None) by discriminate. assert (N'' : zin (lo - 1) vv None) by discriminate.
  destruct nmn as [p|], nmx as [q|]; [| | |injection H as <- <- _; auto]; (destruct mn as [x|], mx as [y|]; [exact (G H)|exact (G H)|exact (G H)|]);
    clear G; injection H as <- <- _; cbn [get_or] in *.
  - split; [auto|]. split; [apply maxToNil_le|auto].
  - split; [auto|]. split; [apply maxToNil_le|auto].
  - split; [apply Wide; lia|]. auto.
Qed.
Lemma resolveInt_in : forall lo f mn mx nmn nmx s r s', - vv - 1 <= lo <= - vv ->
  zin lo (vv + 2) mn -> zle vv mx -> zin lo (vv + 2) nmn -> zle vv nmx -> resolveBoundsInt f mn mx nmn nmx s = Ok (r, s') ->
  zin lo (vv + 2) (fst r) /\ zle vv (snd r) /\ (zin (lo - 1) vv mx -> zin (lo - 1) vv (snd r)).
Proof.
  intros lo f mn mx nmn nmx s r s' HL A B C D H. unfold resolveBoundsInt in H. destruct (boundsInt mn mx nmn nmx) as [[a b] w] eqn:E.
  apply pbind_ok in H. destruct H as (u & t & _ & H). apply pret_ok in H. destruct H as [-> _]. cbn [fst snd].
  eapply boundsInt_in; [exact HL| | | | |exact E]; auto.
Qed.
Lemma zin_zle : forall a b o, zin a b o -> zle b o.
Proof. intros a b o H k Hk. apply (H k Hk). Qed.
(* ------------------------------------------------------------------ negations: the result has no references *)
Section NotFine.
Variable E : penv.
Variable rec : schemaNode -> schemaNode -> P nstate.
Hypothesis Hrec : forall n x s st s', tm n -> tm x -> rec n x s = Ok (st, s') -> tm (fst st).

Lemma moderate_ext : forall n m, moderate n ->
  (sType m, sMinItems m, sMaxItems m, sMinContains m, sMaxContains m, sMinProperties m, sMaxProperties m, sMinimum m, sMaximum m, sExclusiveMinimum m,
   sExclusiveMaximum m, sMultipleOf m) =
  (sType n, sMinItems n, sMaxItems n, sMinContains n, sMaxContains n, sMinProperties n, sMaxProperties n, sMinimum n, sMaximum n, sExclusiveMinimum n,
   sExclusiveMaximum n, sMultipleOf n) -> moderate m.
Proof.
  intros n m H E0. rewrite !pair_equal_spec in E0. destruct E0 as (((((((((((A1&A2)&A3)&A4)&A5)&A6)&A7)&A8)&A9)&A10)&A11)&A12).
  unfold moderate. rewrite A1, A2, A3, A4, A5, A6, A7, A8, A9, A10, A11, A12. exact H.
Qed.
Lemma tm_constraints : forall c n, tm n -> tm (set_sConstraints c n).
Proof. intros c n H. apply tm_fields in H. apply tm_fields. exact H. Qed.
Lemma notSub_tame : forall sc n x s m s', tm n -> tm x -> notSub rec sc n x s = Ok (m, s') -> tm m.
Proof.
  intros sc n x s m s' Hn Hx H. unfold notSub in H.
  apply pbind_ok in H. destruct H as (u1 & t1 & _ & H). apply pbind_ok in H. destruct H as ([m0 c0] & t2 & H2 & H).
  apply pbind_ok in H. destruct H as (u3 & t3 & _ & H). apply pret_ok in H. destruct H as [-> _]. apply tm_constraints.
  apply Hrec in H2; auto.
Qed.
Lemma tm_or : forall o, tms (onode o) -> tm (get_or o emptyNode).
Proof. intros [n|] H; cbn [get_or]; [apply H; left; auto|apply tm_empty]. Qed.
Lemma notSubPtr_tame : forall sc n x s m s', tms (onode n) -> tms (onode x) -> notSubPtr rec sc n x s = Ok (m, s') -> tms (onode m).
Proof.
  intros sc n x s m s' Hn Hx H. unfold notSubPtr in H.
  destruct n, x; pinvs; try apply tms_nil; apply tms_cons; (split; [eapply notSub_tame; [| |exact H0]; auto using tm_or|apply tms_nil]).
Qed.
Lemma notNof_tame : forall sc n x s m s', tms (nofs n) -> tms (nofs x) -> notNof rec sc n x s = Ok (m, s') -> tms (nofs m).
Proof.
  intros sc n x s m s' Hn Hx H. unfold notNof in H.
  assert (G : (let n := get_or n (mkNOF None false) in let x := get_or x (mkNOF None false) in
    if nofFalse n then run* warnIf (nofFalse x) "" in pret (Some n)
      else let* m := notSub rec sc (get_or (nofSchema n) emptyNode) (get_or (nofSchema x) emptyNode) in
           pret (Some (mkNOF (Some m) false))) s = Ok (m, s') -> tms (nofs m)).
  { intros G. cbn zeta in G. destruct (nofFalse (get_or n _)) eqn:F.
    - pinv G. apply pret_ok in H1. destruct H1 as [-> ->]. destruct n as [n|]; [exact Hn|discriminate F].
    - pinv G. apply pret_ok in H1. destruct H1 as [-> ->]. cbn [nofs nofSchema onode]. apply tms_cons. split; [|apply tms_nil].
      eapply notSub_tame; [| |exact H0]; apply tm_or.
      + destruct n as [[[]]|]; exact Hn || apply tms_nil.
      + destruct x as [[[]]|]; exact Hx || apply tms_nil. }
  destruct n, x; auto. apply pret_ok in H. destruct H as [-> _]. apply tms_nil.
Qed.
Lemma itemss_node : forall (o : option (itemsData schemaNode)) d, tms (itemss o) -> tm d -> tm (match o with Some it => get_or (itNode it) d | None => d end).
Proof. intros [[[a|] l b]|] d H Hd; cbn [itNode get_or]; auto. apply H. left. auto. Qed.
Lemma notItems_tame : forall n x s m s', tms (itemss n) -> tms (itemss x) -> notItems rec n x s = Ok (m, s') -> tms (itemss m).
Proof.
  intros n x s m s' Hn Hx H. unfold notItems in H. destruct x as [x|]; [|apply pret_ok in H; destruct H as [-> _]; exact Hn].
  assert (Hn' : tms (itemss (Some (get_or n (mkItems None None false))))) by (destruct n; [exact Hn|apply tms_nil]).
  set (n' := get_or n _) in *. clearbody n'.
  destruct (itDisallow n' && itDisallow x). { pinv H. apply pret_ok in H1. destruct H1 as [-> _]. exact Hn'. }
  destruct (itDisallow n'). { apply pret_ok in H. destruct H as [-> _]. exact Hn'. }
  pinv H. clear H0.
  assert (A : tm (get_or (itNode n') emptyNode)) by (apply (itemss_node (Some n') emptyNode); auto using tm_empty).
  assert (B : tm (get_or (itNode x) emptyNode)) by (apply (itemss_node (Some x) emptyNode); auto using tm_empty).
  destruct (itNode n'), (itNode x); cbn [get_or] in *; pinvs; try apply tms_nil; apply tms_cons;
    (split; [match goal with X : notSub _ _ _ _ _ = Ok _ |- _ => eapply notSub_tame; [| |exact X]; auto end|apply tms_nil]).
Qed.
Lemma notPrefixLoop_tame : forall n i d x s r s', tm d -> tms n -> tms x -> notPrefixLoop rec i d n x s = Ok (r, s') -> tms r.
Proof.
  induction n as [|a n IH]; intros i d x s r s' Hd Hn Hx H.
  - revert i s r s' H. induction x as [|b x IHx]; intros i s r s' H.
    + apply pret_ok in H. destruct H as [-> _]. apply tms_nil.
    + cbn [notPrefixLoop] in H. pinvs. apply tms_cons in Hx. destruct Hx as [Hb Hx]. apply tms_cons. split; [eapply notSub_tame; [| |exact H0]; auto|].
      destruct x; eapply (IHx Hx (i + 1)); cbn [notPrefixLoop]; exact H1.
  - apply tms_cons in Hn. destruct Hn as [Ha Hn]. destruct x as [|b x]; cbn [notPrefixLoop] in H; pinvs; apply tms_cons.
    + split; [eapply notSub_tame; [| |exact H0]; auto using tm_empty|]. eapply IH; [| | |exact H1]; auto using tms_nil.
    + apply tms_cons in Hx. destruct Hx as [Hb Hx]. split; [eapply notSub_tame; [| |exact H0]; auto|]. eapply IH; [| | |exact H1]; auto.
Qed.
Lemma notPrefix_tame : forall n x it s r s', tms (olist n) -> tms (olist x) -> tms (itemss it) -> notPrefix rec n x it s = Ok (r, s') -> tms (olist r).
Proof.
  intros n x it s r s' Hn Hx Hi H. unfold notPrefix in H.
  assert (D : tm (match it with Some it => get_or (itNode it) emptyNode | None => emptyNode end)) by (apply itemss_node; auto using tm_empty).
  assert (A : tms (get_or n [])) by (destruct n; auto using tms_nil). assert (B : tms (get_or x [])) by (destruct x; auto using tms_nil).
  set (d := match it with Some it => get_or (itNode it) emptyNode | None => emptyNode end) in *. clearbody d.
  destruct n, x; pinvs; try apply tms_nil; cbn [olist]; (eapply notPrefixLoop_tame; [| | |exact H0]; auto).
Qed.
Lemma assoc_tm : forall k l n, tms (map snd l) -> assoc k l = Some n -> tm n.
Proof.
  induction l as [|[k' v] l IH]; cbn [assoc map snd]; intros n H A; [discriminate|]. apply tms_cons in H. destruct H as [Hv Hl].
  destruct (String.eqb k k'); [injection A as <-; auto|auto].
Qed.
Lemma notPropsLoop_tame : forall ks n x acc s r s', tms (map snd n) -> tms (map snd x) -> tms (map snd acc) ->
  notPropsLoop rec ks n x acc s = Ok (r, s') -> tms (map snd r).
Proof.
  induction ks as [|k ks IH]; intros n x acc s r s' Hn Hx Ha H; cbn [notPropsLoop] in H; [pinvs; auto|].
  destruct (assoc k x) as [q|] eqn:Q.
  - pinvs. eapply IH; [| | |exact H]; auto. apply assign_tms'; auto. eapply notSub_tame; [| |exact H0].
    + destruct (assoc k n) eqn:N; cbn [get_or]; [eapply assoc_tm; [|exact N]; auto|apply tm_empty].
    + eapply assoc_tm; [|exact Q]; auto.
  - eapply IH; [| | |exact H]; auto. destruct (assoc k n) eqn:N; auto. apply assign_tms'; auto. eapply assoc_tm; [|exact N]; auto.
Qed.
Lemma mdelete_tms : forall k l, tms (map snd l) -> tms (map (@snd string schemaNode) (mdelete k l)).
Proof.
  induction l as [|[k' v] l IH]; cbn [mdelete map snd]; intros H; auto. apply tms_cons in H. destruct H.
  destruct (String.eqb k k'); cbn [map snd]; auto. apply tms_cons; auto.
Qed.

Lemma notString_tame : forall st n x s st' s', tm (fst st) -> notApplyString E st n x s = Ok (st', s') -> tm (fst st').
Proof.
  intros [m c] n x s st' s' Hm H. unfold notApplyString in H. apply pbind_ok in H. destruct H as (b & t1 & _ & H). cbv zeta in H.
  assert (G : tm (set_sMinLength (fst b) (set_sMaxLength (snd b) (set_sPattern (sPattern n) (set_sFormat (sFormat n) m))))).
  { cbn [fst] in Hm. apply tm_fields in Hm. apply tm_fields. exact Hm. }
  set (m' := set_sMinLength _ _) in *. clearbody m'.
  destruct (sPattern x) as [p|]; [|destruct (sFormat x) as [f|]];
  repeat match type of H with (if ?b then _ else _) _ = _ => destruct b end;
  repeat match type of H with pbind _ _ _ = _ => apply pbind_ok in H; destruct H as (u & t & _ & H) end;
  apply pret_ok in H; destruct H as [-> _]; exact G.
Qed.
Lemma moderate_bounds : forall m mn mx, moderate m -> obnd bigB mn -> obnd bigB mx -> moderate (set_sMinimum mn (set_sMaximum mx m)).
Proof.
  intros m mn mx (M1&M2&M3&M4&M5&M6&M7&M8&M9&M10&M11&M12) A B. unfold moderate. 
  exact (conj M1 (conj M2 (conj M3 (conj M4 (conj M5 (conj M6 (conj M7 (conj A (conj B (conj M10 (conj M11 M12))))))))))).
Qed.
Lemma moderate_multiple : forall m o, moderate m -> (forall k, o = Some k -> ms k) -> moderate (set_sMultipleOf o m).
Proof.
  intros m o (M1&M2&M3&M4&M5&M6&M7&M8&M9&M10&M11&M12) A. unfold moderate. 
  exact (conj M1 (conj M2 (conj M3 (conj M4 (conj M5 (conj M6 (conj M7 (conj M8 (conj M9 (conj M10 (conj M11 A))))))))))).
Qed.
Lemma moderate_enum : forall m o, moderate m -> moderate (set_sEnum o m).
Proof. intros m o H. exact H. Qed.
Lemma notNumber_tame : forall st n x s st' s', tm (fst st) -> tm n -> tm x -> notApplyNumber st n x s = Ok (st', s') -> tm (fst st').
Proof.
  intros [m c] n x s st' s' Hm Hn Hx H. unfold notApplyNumber in H. cbv zeta in H.
  pose proof (tm_lc n Hn) as Ln. pose proof (tm_lc x Hx) as Lx. clear Hn Hx.
  destruct Ln as (_&_&_&_&_&_&_&N8&N9&N10&N11&N12), Lx as (_&_&_&_&_&_&_&X8&X9&X10&X11&X12).
  destruct (boundsFloat _ _ _ _ _ _ _ _ _) as [[[[mn mx] amn] amx] w] eqn:EB.
  assert (B : obnd bigB mn /\ obnd bigB mx).
  { unshelve eapply bounds_bnd; [..|exact EB]; assumption. }
  clear EB. destruct B as [B1 B2].
  apply pbind_ok in H. destruct H as (b & t1 & _ & H).
  cbn [fst] in Hm. apply tm_fields in Hm. destruct Hm as [Lm Hm].
  pose proof (moderate_bounds m mn mx Lm B1 B2) as L1.
  pose proof (moderate_multiple _ (sMultipleOf n) L1 N12) as L2.
  assert (L3 : moderate (set_sMinimum None (set_sMaximum None (set_sMultipleOf None (set_sMinimum mn (set_sMaximum mx m)))))).
  { apply moderate_bounds; [apply moderate_multiple; [exact L1|intros k Hk; discriminate Hk]|exact I|exact I]. }
  set (m1 := set_sMinimum mn (set_sMaximum mx m)) in *.
  assert (G : forall k, moderate k -> sRef k = sRef m -> (eachField tms k = eachField tms m) -> tm k).
  { intros k K1 K2 K3. apply tm_fields. split; [exact K1|rewrite K3; exact Hm]. }
  repeat match type of H with (if ?b then ?m else ?k) _ = _ => apply (if_ok _ b m k) in H; destruct H as [H|H] end;
  repeat match type of H with pbind _ _ _ = _ => apply pbind_ok in H; destruct H as (u & t & _ & H) end;
  apply pret_ok in H; destruct H as [-> _]; cbn [fst]; apply G; try exact L1; try exact L2; try (apply moderate_enum; exact L3); reflexivity.
Qed.
Lemma notEnum_tame : forall st n x s st' s', tm (fst st) -> notApplyEnum st n x s = Ok (st', s') -> tm (fst st').
Proof.
  intros [m c] n x s st' s' Hm H. cbn [fst] in Hm. apply tm_fields in Hm. 
  assert (G : forall l, tm (set_sEnum l m)) by (intros; apply tm_fields; exact Hm). apply tm_fields in Hm.
  unfold notApplyEnum in H. cbv zeta in H.
  repeat match type of H with
  | match ?b with _ => _ end _ = _ => destruct b
  | (if ?b then _ else _) _ = _ => destruct b
  end;
  repeat match type of H with pbind _ _ _ = _ => apply pbind_ok in H; destruct H as (u & t & _ & H) end;
  apply pret_ok in H; destruct H as [-> _]; cbn [fst]; auto.
Qed.
Lemma notConst_tame : forall st n x s st' s', tm (fst st) -> notApplyConst st n x s = Ok (st', s') -> tm (fst st').
Proof.
  intros [m c] n x s st' s' Hm H. cbn [fst] in Hm. apply tm_fields in Hm. 
  assert (G : forall l, tm (set_sConst l m)) by (intros; apply tm_fields; exact Hm). apply tm_fields in Hm.
  unfold notApplyConst in H. cbv zeta in H.
  destruct (sConst x); [match type of H with (if ?b then _ else _) _ = _ => destruct b end|];
  repeat match type of H with pbind _ _ _ = _ => apply pbind_ok in H; destruct H as (u & t & _ & H) end;
  apply pret_ok in H; destruct H as [-> _]; cbn [fst]; auto.
Qed.
Ltac step H a := apply pbind_ok in H; let t := fresh "t" in let K := fresh "K" in destruct H as (a & t & K & H).
Lemma notArray_tame : forall st n x s st' s', tm (fst st) -> tm n -> tm x -> notApplyArray rec st n x s = Ok (st', s') -> tm (fst st').
Proof.
  intros [m c] n x s st' s' Hm Hn Hx H. cbn [fst] in Hm. apply tm_fields in Hm, Hn, Hx. unfold eachField in *. destruct Hm as [Lm Hm].
  unfold notApplyArray in H. step H bi. step H bc. cbv zeta in H.
  assert (LL : zin (- vv) (vv + 2) (fst bi) /\ zin (- vv - 1) vv (snd bi) /\ zin (- vv - 1) (vv + 2) (fst bc) /\ zle vv (snd bc)).
  { destruct Hn as [(_&N2&N3&N4&N5&_) _], Hx as [(_&X2&X3&X4&X5&_) _].
    apply (resolveInt_in (- vv)) in K; auto; [|lia|exact (zin_zle _ _ _ N3)|exact (zin_zle _ _ _ X3)].
    apply (resolveInt_in (- vv - 1)) in K0; auto; [|lia]. destruct K as (A1 & _ & A2), K0 as (B1 & B2 & _). auto. }
  destruct LL as (L1 & L2 & L3 & L4). step H u1. step H its. step H u2. step H un. step H prx. step H une. step H con.
  apply pret_ok in H. destruct H as [-> _]. cbn [fst].
  apply notItems_tame in K2; try tauto. apply notPrefix_tame in K5; try tauto. apply notNof_tame in K6; try tauto. apply notSubPtr_tame in K7; try tauto.
  clear Hn Hx. apply tm_fields. split; [|unfold eachField; tauto]. clear Hm.
  assert (L3' : zin (- vv - 1) (vv + 2) (if match fst bc with Some a => match snd bi with Some b => b <? a | None => false end | None => false end then snd bi else fst bc)).
  { match goal with |- context [if ?b then _ else _] => destruct b end; auto. intros k Hk. apply L2 in Hk. lia. }
  destruct Lm as (M1&M2&M3&M4&M5&M6&M7&M8&M9&M10&M11&M12).
  exact (conj M1 (conj L1 (conj L2 (conj L3' (conj L4 (conj M6 (conj M7 (conj M8 (conj M9 (conj M10 (conj M11 M12))))))))))).
Qed.
Lemma notObject_tame : forall st n x s st' s', tm (fst st) -> tm n -> tm x -> notApplyObject rec st n x s = Ok (st', s') -> tm (fst st').
Proof.
  intros [m c] n x s st' s' Hm Hn Hx H. cbn [fst] in Hm. apply tm_fields in Hm, Hn, Hx. unfold eachField in *. destruct Hm as [Lm Hm].
  unfold notApplyObject in H. step H b.
  assert (LL : zin (- vv) (vv + 2) (fst b) /\ zle vv (snd b)).
  { destruct Hn as [(_&_&_&_&_&N6&N7&_) _], Hx as [(_&_&_&_&_&X6&X7&_) _].
    apply (resolveInt_in (- vv)) in K; auto; [|lia]. destruct K as (A1 & A2 & _). auto. }
  destruct LL as (L1 & L2). cbv zeta in H. step H props. step H u1. step H addp.
  assert (P : tms (map snd props)).
  { eapply notPropsLoop_tame; [| | |exact K0]; [| |apply tms_nil].
    - destruct (sProperties n); cbn [get_or]; [tauto|apply tms_nil].
    - destruct (sProperties x); cbn [get_or]; [tauto|apply tms_nil]. }
  apply notNof_tame in K2; try tauto. assert (PP : tms (omaps (sPatternProperties n))) by tauto. clear Hn Hx.
  set (gone := filter _ _) in H.
  assert (P' : tms (map snd (fold_left (fun acc p => mdelete p acc) gone props))).
  { clear H. revert props K0 P. generalize gone. induction gone0 as [|k l IH]; intros props K0 P; cbn [fold_left]; auto.
    clear K0. revert P. assert (forall l props, tms (map snd props) -> tms (map snd (fold_left (fun acc p => mdelete p acc) l props))) as X.
    { induction l0 as [|k' l' IH']; intros p Hp; cbn [fold_left]; auto. apply IH'. apply mdelete_tms; auto. }
    intros P. apply X. apply mdelete_tms; auto. }
  set (ps := fold_left _ gone props) in *. clearbody ps. apply pret_ok in H. destruct H as [-> _]. cbn [fst].
  assert (LM : moderate (set_sMinProperties (fst b) (set_sMaxProperties (snd b) (set_sPatternProperties (sPatternProperties n)
           (set_sAdditionalProperties addp (set_sRequired (sRequired n) m)))))).
  { destruct Lm as (M1&M2&M3&M4&M5&M6&M7&M8&M9&M10&M11&M12).
    exact (conj M1 (conj M2 (conj M3 (conj M4 (conj M5 (conj L1 (conj L2 (conj M8 (conj M9 (conj M10 (conj M11 M12))))))))))). }
  destruct ps; apply tm_fields; (split; [exact LM|]); unfold eachField; tauto.
Qed.
Lemma notStep_tame : forall n x s st s', tm n -> tm x -> notStep E rec n x s = Ok (st, s') -> tm (fst st).
Proof.
  intros n x s st s' Hn Hx H. unfold notStep in H. step H t0. destruct t0 as [m|]; [|apply pret_ok in H; destruct H as [-> _]; apply tm_empty].
  assert (Hm : tm m).
  { clear H. unfold notApplyType in K. destruct (resolveType n x) as [ty|] eqn:T0.
    - apply pret_ok in K. destruct K as [K _]. injection K as ->. apply tm_intro; [|intros c []].
      assert (T : okTypes (Some ty)).
      { intros t' Ht. injection Ht as <-. revert T0. unfold resolveType. destruct (filter _ _) as [|a [|b l]]; [discriminate| |]; intros T0; injection T0 as <-; discriminate. }
      destruct moderate_empty as (_ & M). exact (conj T M).
    - step K u. apply pret_ok in K. destruct K as [K _]. discriminate K. }
  step H s1. apply notString_tame in K0; auto. step H s2. apply notNumber_tame in K1; auto. step H s3. apply notEnum_tame in K2; auto.
  step H s4. apply notConst_tame in K3; auto. step H s5. apply notArray_tame in K4; auto. step H s6. apply notObject_tame in K5; auto.
  step H s7. apply pret_ok in H. destruct H as [-> _]. cbn [fst]. clear K K0 K1 K2 K3 K4 K6 Hm Hx.
  apply tm_fields in K5, Hn. destruct Hn as [_ Hn], K5 as [LK K]. apply tm_fields. split; [exact LK|]. unfold eachField in *. unfold keepFields.
  assert (X : tms (sMergedNot n ++ match sNot n with Some y => [y] | None => [] end)%list) by (apply tms_app; split; [tauto|destruct (sNot n); tauto]).
  assert (Y : tms (onode (@None schemaNode))) by (apply tms_nil). cbn beta zeta. tauto.
Qed.
End NotFine.
Theorem notMerge_tame : forall E f n x s st s', tm n -> tm x -> notMerge E f n x s = Ok (st, s') -> tm (fst st).
Proof.
  induction f as [|f IH]; intros n x s st s' Hn Hx H; [discriminate|]. eapply (notStep_tame E (notMerge E f)); [exact IH| | |exact H]; auto.
Qed.
Lemma applyNots_tame : forall E f xs n c s st s', tm n -> tms xs -> applyNots E f n c xs s = Ok (st, s') -> tm (fst st).
Proof.
  induction xs as [|x xs IH]; intros n c s st s' Hn Hx H; cbn [applyNots] in H; [apply pret_ok in H; destruct H as [-> _]; auto|].
  apply tms_cons in Hx. destruct Hx as [Hx Hxs]. apply pbind_ok in H. destruct H as (a & t & K & H). eapply IH; [| |exact H]; auto.
  eapply notMerge_tame; [| |exact K]; auto.
Qed.


End Tame.
