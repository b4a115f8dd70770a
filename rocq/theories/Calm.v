(* Parsing a schema with plain references and clean negations does not panic. *)
From Coq Require Import ZArith List String Ascii Bool Lia.
From Verif Require Import Base Float64 Json Schema NodeFacts Util Number Gen Codec PState PFacts RefPath Merge NotMerge Parse ParseKeep MergeFacts MergeProps FuelMono Terminate CodecFacts Rewrite SpecCalm.
Import ListNotations.
Open Scope string_scope.
Open Scope Z_scope.

(* ------------------------------------------------------------------ pointers *)
Definition even (p : string) : Prop := forall w, In w risky -> ~ In w (segments p).
Lemma segments_ne : forall p, segments p <> [].
Proof. induction p as [|c p IH]; cbn [segments]; [discriminate|]. destruct (Ascii.eqb c "/"); [discriminate|]. destruct (segments p); discriminate. Qed.
Lemma token_segments : forall p t r, refToken p = (t, r) -> exists l, segments p = t :: l /\ (l = [] /\ r = "" \/ segments r = l).
Proof.
  induction p as [|c p IH]; cbn [refToken segments]; intros t r H; [injection H as <- <-; exists []; auto|].
  destruct (Ascii.eqb c "/"); [injection H as <- <-; exists (segments p); auto|].
  destruct (refToken p) as [t0 r0]. injection H as <- <-. destruct (IH t0 r0 eq_refl) as (l & E & H). rewrite E. exists l. auto.
Qed.
Lemma even_token : forall p t r, even p -> refToken p = (t, r) -> ~ In t risky /\ even r.
Proof.
  intros p t r H E. destruct (token_segments p t r E) as (l & Es & Hl). unfold even in *. rewrite Es in H. split.
  - intros Ht. apply (H t Ht). left. reflexivity.
  - destruct Hl as [[-> ->]|Hl].
    + intros w Hw [<-|[]]. cbn in Hw. repeat (destruct Hw as [Hw|Hw]; [discriminate Hw|]). destruct Hw.
    + rewrite Hl. intros w Hw Hi. apply (H w Hw). right. exact Hi.
Qed.
Lemma resolveSub_calm : forall f o p w, even p -> resolveSubF f o p <> Panic w.
Proof.
  induction f as [|f IH]; intros o p w Hp H; cbn [resolveSubF] in H; [discriminate H|]. destruct o as [n|]; [|discriminate H].
  destruct (refToken p) as [part rest] eqn:T. destruct (even_token p part rest Hp T) as [Hr He]. destruct (String.eqb rest ""); [discriminate H|].
  assert (P1 : forall l, refProperty (resolveSubF f) l rest <> Panic w).
  { intros [l|] R; cbn [refProperty] in R; [|discriminate R]. destruct (refToken rest) as [nm r2] eqn:T2. destruct (assoc nm l); [|discriminate R].
    exact (IH _ r2 w (proj2 (even_token rest nm r2 He T2)) R). }
  unfold refCase in H.
  repeat match type of H with (if String.eqb part ?k then _ else _) = _ =>
    destruct (String.eqb_spec part k) as [E|_]; [try (exfalso; apply Hr; rewrite E; cbn [risky In]; tauto; fail); first [exact (P1 _ H)|exact (IH _ _ _ He H)]|] end.
  discriminate H.
Qed.

Lemma pointer_nohash : forall d p, pointerOf d = "" -> pointerOf (d ++ p) = pointerOf p.
Proof.
  induction d as [|c d IH]; intros p H; [reflexivity|]. cbn [append pointerOf] in *. destruct (Ascii.eqb c "#"); [discriminate H|]. auto.
Qed.
Lemma split_pointer : forall r, snd (splitHash r) = pointerOf r /\ pointerOf (fst (splitHash r)) = "".
Proof.
  induction r as [|c r [IH1 IH2]]; cbn [splitHash pointerOf]; [auto|]. destruct (Ascii.eqb c "#") eqn:E; [auto|].
  destruct (splitHash r) as [d p]. cbn [fst snd pointerOf] in *. rewrite E. auto.
Qed.
Lemma refDoc_nohash : forall r, pointerOf (refDoc r) = "".
Proof.
  intros r. unfold refDoc, matchRef. pose proof (split_pointer r) as [_ H]. destruct (splitHash r) as [d p]. destruct (hasChar "010" p); [reflexivity|exact H].
Qed.
Lemma plain_hash : plainPointer "#".
Proof.
  split; [auto|]. intros w Hw [<-|[]]. cbn in Hw. repeat (destruct Hw as [Hw|Hw]; [discriminate Hw|]). destruct Hw.
Qed.
Lemma plain_refPath : forall r, plainRef r -> plainPointer (refPath r).
Proof.
  intros r H. unfold refPath, matchRef. pose proof (split_pointer r) as [E _]. destruct (splitHash r) as [d p]. cbn [snd] in E. subst p.
  destruct (hasChar "010" _); [apply plain_hash|]. destruct (String.eqb_spec (pointerOf r) "") as [_|N]; [apply plain_hash|]. destruct H as [H|H]; [contradiction|exact H].
Qed.
Lemma plain_join : forall d p, pointerOf d = "" -> plainPointer p -> plainRef (d ++ p).
Proof.
  intros d p Hd Hp. right. rewrite (pointer_nohash d p Hd). destruct Hp as [[->|[q ->]] Hp]; (split; [|exact Hp]); [left; reflexivity|right; exists q; reflexivity].
Qed.
Lemma segments_app : forall a b, (b = "" \/ exists q, b = "/" ++ q) -> forall w, In w (segments (a ++ b)) -> In w (segments a) \/ In w (segments b) .
Proof.
  induction a as [|c a IH]; intros b Hb w H; [auto|]. cbn [append segments] in *. destruct (Ascii.eqb c "/").
  - destruct H as [H|H]; [left; left; exact H|]. destruct (IH b Hb w H); [left; right; auto|auto].
  - assert (X : exists l, segments (a ++ b) = hd "" (segments a) :: l /\ (forall x, In x l -> In x (tl (segments a)) \/ In x (segments b))).
    { clear w H IH c. induction a as [|c a IH]; cbn [append segments].
      - destruct Hb as [->|[q ->]]; [exists []; split; [reflexivity|intros x []]|]. exists (segments q). split; [reflexivity|]. intros x Hx. right. right. exact Hx.
      - destruct IH as (l & E & Hl). destruct (Ascii.eqb c "/").
        + exists (segments (a ++ b)). split; [reflexivity|]. rewrite E. cbn [hd tl]. intros x [<-|Hx].
          * left. destruct (segments a) as [|h t] eqn:Es; [destruct (segments_ne a Es)|left; reflexivity].
          * destruct (Hl x Hx) as [H|H]; auto. left. destruct (segments a); [destruct H|right; exact H].
        + rewrite E. destruct (segments a) as [|h t] eqn:Es; [destruct (segments_ne a Es)|]. cbn [hd tl] in *. exists l. split; [reflexivity|exact Hl]. }
    destruct X as (l & E & Hl). rewrite E in H. destruct (segments a) as [|h t] eqn:Es; [destruct (segments_ne a Es)|]. cbn [hd tl] in *.
    destruct H as [<-|H]; [left; left; reflexivity|]. destruct (Hl w H); [left; right; auto|auto].
Qed.
Lemma plain_compose : forall a p, plainPointer a -> plainPointer p -> plainPointer (composePaths a p).
Proof.
  intros a p Ha Hp. unfold composePaths. destruct (String.eqb_spec p "#"); [exact Ha|]. destruct (String.eqb_spec p ""); [exact Ha|]. cbn [orb].
  destruct Hp as [[->|[q ->]] Hp]; [contradiction|]. destruct Ha as [Fa Ha]. cbn [append]. split.
  - right. destruct Fa as [->|[r ->]]; [exists q; reflexivity|]. exists (r ++ "/" ++ q). cbn [append]. reflexivity.
  - intros w Hw Hi. apply (segments_app a ("/" ++ q)) in Hi; [|eauto]. destruct Hi as [Hi|Hi]; [exact (Ha w Hw Hi)|].
    destruct Hi as [Hi|Hi]; [|apply (Hp w Hw); right; exact Hi]. cbn [append segments] in Hi. subst w.
    cbn in Hw. repeat (destruct Hw as [Hw|Hw]; [discriminate Hw|]). destruct Hw.
Qed.

(* ------------------------------------------------------------------ a condition on a schema and all below it *)
Section Closure.
Variable lc : schemaNode -> Prop.
Hypothesis lc_empty : lc emptyNode.
Definition tm (n : schemaNode) : Prop := forall m, within n m -> lc m.
Definition tms (l : list schemaNode) : Prop := forall c, In c l -> tm c.
Lemma tm_sub : forall n c, tm n -> In c (subnodes n) -> tm c.
Proof. intros n c H Hc m Hm. apply H. eapply within_step; eauto. Qed.
Lemma tm_intro : forall n, lc n -> (forall c, In c (subnodes n) -> tm c) -> tm n.
Proof. intros n H Hc m Hm. destruct Hm as [n|n c d Hin Hd]; auto. exact (Hc _ Hin _ Hd). Qed.
Lemma tm_lc : forall n, tm n -> lc n.
Proof. intros n H. apply H. apply within_refl. Qed.
Lemma tms_app : forall a b, tms (a ++ b) <-> tms a /\ tms b.
Proof.
  intros a b. unfold tms. split.
  - intros H. split; intros c Hc; apply H; apply in_or_app; auto.
  - intros [Ha Hb] c Hc. apply in_app_or in Hc. destruct Hc; auto.
Qed.
Lemma tms_cons : forall x l, tms (x :: l) <-> tm x /\ tms l.
Proof. intros. unfold tms. split; [intros H; split; [apply H; left; auto|intros; apply H; right; auto]|intros [A B] c [<-|Hc]; auto]. Qed.
Lemma tms_nil : tms [].
Proof. intros c []. Qed.
Lemma tm_fields : forall n, tm n <-> lc n /\ eachField tms n.
Proof.
  intros n. transitivity (lc n /\ tms (subnodes n)).
  - split; [intros H; split; [apply tm_lc; auto|intros c; apply tm_sub; auto]|intros [A B]; apply tm_intro; auto].
  - unfold subnodes, eachField. rewrite !tms_app. cbn beta. tauto.
Qed.
Lemma tm_empty : tm emptyNode.
Proof. apply tm_intro; [apply lc_empty|]. intros c []. Qed.
Lemma two_tm : forall a b, tm a -> tm b -> tms [a; b].
Proof. intros a b Ha Hb c [<-|[<-|[]]]; auto. Qed.


Lemma resolveSub_tame : forall f o p n, tms (onode o) -> resolveSubF f o p = Ok (Good n) -> tm n.
Proof.
  induction f as [|f IH]; intros o p n Ho H; cbn [resolveSubF] in H; [discriminate H|]. destruct o as [c|]; [|discriminate H].
  assert (Hc : tm c) by (apply Ho; left; auto). clear Ho. destruct (refToken p) as [part rest]. destruct (String.eqb rest ""); [injection H as <-; exact Hc|].
  pose proof Hc as Kc. apply tm_fields in Hc. destruct Hc as [Lc Fc].
  assert (P1 : forall l path, tms (omaps l) -> refProperty (resolveSubF f) l path = Ok (Good n) -> tm n).
  { intros [l|] path Hl R; cbn [refProperty] in R; [|discriminate R]. destruct (refToken path) as [name r]. destruct (assoc name l) as [y|] eqn:A; [|discriminate R].
    apply (IH (Some y) r n); auto. intros z [<-|[]]. apply Hl. cbn [omaps]. apply assoc_In in A. apply (in_map snd) in A. exact A. }
  assert (P2 : forall l path, tms (olist l) -> refSlice (resolveSubF f) l path = Ok (Good n) -> tm n).
  { intros [l|] path Hl R; cbn [refSlice] in R; [|discriminate R]. destruct (refToken path) as [name r]. destruct (atoi name) as [i|]; [|discriminate R].
    destruct (_ || _); [discriminate R|]. destruct (nth_error l (Z.to_nat i)) as [y|] eqn:A; [|discriminate R].
    apply (IH (Some y) r n); auto. intros z [<-|[]]. apply Hl. cbn [olist]. eapply nth_error_In; eauto. }
  assert (P3 : forall d path, tms (nofs d) -> refNof (resolveSubF f) d path = Ok (Good n) -> tm n).
  { intros [[d b]|] path Hl R; cbn [refNof nofFalse nofSchema] in R; [|discriminate R]. destruct b; [discriminate R|]. apply (IH d path n); auto. }
  assert (P4 : forall d path, tms (itemss d) -> refItems (resolveSubF f) d path = Ok (Good n) -> tm n).
  { intros [[d l b]|] path Hl R; cbn [refItems itNode itNodes] in R; [|discriminate R]. cbn [itemss itNode itNodes] in Hl. apply tms_app in Hl. destruct Hl as [Hd Hl].
    destruct (isNumber _); [apply (P2 l path); auto|apply (IH d path n); auto]. }
  unfold eachField in Fc. destruct Fc as (F1&F2&F3&F4&F5&F6&F7&F8&F9&F10&F11&F12&F13&F14&F15&F16&F17&F18&_).
  unfold refCase in H.
  repeat match type of H with (if ?b then _ else _) = _ => destruct b end;
  first [discriminate H
        |match type of H with
         | refProperty _ ?l _ = _ => exact (P1 l rest ltac:(assumption) H)
         | refSlice _ ?l _ = _ => exact (P2 l rest ltac:(assumption) H)
         | refNof _ ?l _ = _ => exact (P3 l rest ltac:(assumption) H)
         | refItems _ ?l _ = _ => exact (P4 l rest ltac:(assumption) H)
         | resolveSubF _ (Some c) _ = _ => apply (IH (Some c) rest n); [intros z [<-|[]]; exact Kc|exact H]
         | resolveSubF _ ?o _ = _ => apply (IH o rest n); [assumption|exact H]
         end].
Qed.

End Closure.

(* ------------------------------------------------------------------ clean and calm schemas *)
Definition lcc (m : schemaNode) : Prop := sRef m = None /\ sUniqueItems m = None.
Lemma lcc_empty : lcc emptyNode.
Proof. split; reflexivity. Qed.
Lemma calm_empty : calmNode emptyNode.
Proof. split; [intros r X; discriminate X|intros x [[]|[]]]. Qed.
Lemma clean_sub : forall x c, clean x -> In c (subnodes x) -> clean c.
Proof. exact (tm_sub lcc). Qed.
Lemma lcc_calm : forall x, clean x -> calm x.
Proof.
  intros x H m Hm. split; [intros r X; rewrite (proj1 (H m Hm)) in X; discriminate X|].
  assert (Cm : clean m). { clear -H Hm. induction Hm as [n|n c d Hc Hd IH]; auto. apply IH. eapply clean_sub; eauto. }
  intros y Hy. apply (clean_sub m); [exact Cm|]. unfold subnodes. rewrite !in_app_iff. destruct Hy; tauto.
Qed.
Section Image.
Variable E : penv.
Hypothesis Hid : forall a b c d, pxResolveId E a b c = Some d -> pointerOf d = "".
(* what the state knows of documents and aliases *)
Definition named (s : pst) : Prop :=
  (forall k d p, assoc k (pAliases s) = Some (d, p) -> pointerOf d = "" /\ plainPointer p) /\ pointerOf (scope s) = "".
Lemma docRef_plain : forall s doc path d p, named s -> plainPointer path -> resolveDocRef E s doc path = Good (d, p) -> pointerOf d = "" /\ plainPointer p.
Proof.
  intros s doc path d p [A S] Hp H. unfold resolveDocRef in H.
  destruct (if String.eqb _ _ then None else _) as [[d0 p0]|] eqn:X.
  - injection H as <- <-. destruct (String.eqb _ _) in X; [discriminate X|]. destruct (A _ _ _ X) as [A1 A2]. split; [exact A1|]. apply plain_compose; auto.
  - destruct (negb _); [injection H as <- <-; auto|]. destruct (pxResolveId E (pParsing s) (scope s) doc) as [d0|] eqn:R; [|discriminate H]. injection H as <- <-. split; [eapply Hid; eauto|exact Hp].
Qed.
Lemma resolveRef_plain : forall s r d p, named s -> plainRef r -> resolveRef E s r = Good (d, p) -> pointerOf d = "" /\ plainPointer p.
Proof.
  intros s r d p N Hr H. unfold resolveRef in H. destruct (String.eqb _ _); [injection H as <- <-; split; [apply N|apply plain_refPath; exact Hr]|].
  eapply docRef_plain; eauto. apply plain_refPath; exact Hr.
Qed.
Lemma becomes_plain : forall s a b, named s -> plainRef a -> becomes E s a b -> plainRef b.
Proof. intros s a b N Ha (d & p & R & ->). destruct (resolveRef_plain s a d p N Ha R). apply plain_join; auto. Qed.
Lemma clean_image : forall RR n n', clean n -> image RR n n' -> clean n'.
Proof.
  intros RR n n' H I m' Hm. destruct (within_image RR n' m' Hm n I) as [->|(m & Hw & Im)]; [apply lcc_empty|].
  destruct (H m Hw) as [A B]. destruct (image_ref RR m m' Im) as [C D]. split; [|auto].
  destruct (sRef m') as [b|] eqn:R; [|reflexivity]. destruct (C b eq_refl) as (a & X & _). congruence.
Qed.
Lemma rewrite_calm : forall s n n', named s -> calm n -> rewriteNode E s n = Good n' -> calm n'.
Proof.
  intros s n n' N H R m' Hm. apply rewrite_image in R. destruct (within_image _ n' m' Hm n R) as [->|(m & Hw & Im)]; [apply calm_empty|].
  destruct (H m Hw) as [A B]. destruct (image_ref _ m m' Im) as [C _]. split.
  - intros b Hb. destruct (C b Hb) as (a & Ha & X). destruct X as [<-|X]; [auto|]. eapply becomes_plain; eauto.
  - destruct (image_fields _ m m' Im) as [F _]. destruct F as (_&_&_&_&_&_&_&_&F9&_&_&_&_&_&_&_&_&_&_&F20). rewrite F20.
    intros x [Hx|[]]. destruct (F9 x Hx) as [->|(c & Hc & Ic)]; [intros y Hy; inversion Hy as [|? d ? Hd]; subst; [apply lcc_empty|destruct Hd]|].
    eapply clean_image; [|exact Ic]. apply B. left. exact Hc.
Qed.
End Image.

(* ------------------------------------------------------------------ merging: no panic, and calm results *)
Notation tmc := (tm calmNode).
Notation tmsc := (tms calmNode).
Section Walk.
Variable E : penv.
Hypothesis Hid : forall a b c d, pxResolveId E a b c = Some d -> pointerOf d = "".
Hypothesis Hfetch : forall p d n, pxFetch E p d = Some n -> calm n /\ plainIds n.
Definition inv (s : pst) : Prop :=
  (forall d n, assoc d (pDocs s) = Some n -> tmc n) /\
  (forall k d p, In (k, (d, p)) (pAliases s) -> pointerOf d = "" /\ plainPointer p) /\
  pointerOf (pParsing s) = "" /\ pointerOf (pResolving s) = "" /\
  (forall d, In d (pQueue s) -> pointerOf d = "") /\ (forall k, In k (pStack s) -> pointerOf (beforeChar "|" k) = "").
Lemma inv_named : forall s, inv s -> named s.
Proof.
  intros s (_ & A & B & C & _). split; [|unfold scope; destruct (String.eqb _ _); auto]. intros k d p H. apply assoc_In in H. eauto.
Qed.
Definition pp {A} (m : P A) (Q : A -> Prop) : Prop := forall s, inv s -> match m s with Ok (a, s') => inv s' /\ Q a | Panic _ => False | Timeout => True end.
Definition any {A} (a : A) : Prop := True.
Lemma pp_ret : forall A (a : A) (Q : A -> Prop), Q a -> pp (pret a) Q.
Proof. intros A a Q Ha s I. exact (conj I Ha). Qed.
Lemma pp_bind : forall A B (m : P A) (k : A -> P B) (R : A -> Prop) (Q : B -> Prop), pp m R -> (forall a, R a -> pp (k a) Q) -> pp (pbind m k) Q.
Proof.
  intros A B m k R Q Hm Hk s I. unfold pbind. specialize (Hm s I). destruct (m s) as [[a t]| |]; auto. destruct Hm as [I' Ra]. exact (Hk a Ra t I').
Qed.
Lemma pp_weak : forall A (m : P A) (R Q : A -> Prop), pp m R -> (forall a, R a -> Q a) -> pp m Q.
Proof. intros A m R Q Hm HQ s I. specialize (Hm s I). destruct (m s) as [[a t]| |]; auto. destruct Hm. auto. Qed.
Lemma pp_with : forall A (m : P A) (Q : A -> Prop), pp m any -> (forall s a s', inv s -> m s = Ok (a, s') -> Q a) -> pp m Q.
Proof. intros A m Q Hm HQ s I. specialize (Hm s I). specialize (HQ s). destruct (m s) as [[a t]| |]; auto. destruct Hm. split; auto. eapply HQ; eauto. Qed.
Lemma pp_run : forall A B (m : P A) (k : P B) (Q : B -> Prop), pp m any -> pp k Q -> pp (pbind m (fun _ => k)) Q.
Proof. intros. eapply pp_bind; eauto. Qed.
Lemma pp_mod : forall f, (forall s, inv s -> inv (f s)) -> pp (pmod f) any.
Proof. intros f H s I. exact (conj (H s I) Logic.I). Qed.
Lemma pp_same : forall f, (forall s, pDocs (f s) = pDocs s /\ pAliases (f s) = pAliases s /\ pParsing (f s) = pParsing s /\ pResolving (f s) = pResolving s /\ pQueue (f s) = pQueue s /\ pStack (f s) = pStack s) -> pp (pmod f) any.
Proof. intros f H. apply pp_mod. intros s I. destruct (H s) as (A & B & C & D & F & G). unfold inv. rewrite A, B, C, D, F, G. exact I. Qed.
Lemma pp_lift : forall A (r : res A) (Q : A -> Prop), (forall a, r = Ok a -> Q a) -> (forall w, r <> Panic w) -> pp (plift r) Q.
Proof. intros A r Q HQ HP s I. unfold plift. destruct r; auto. exact (HP _ eq_refl). Qed.
Lemma pp_get : pp pget inv.
Proof. intros s I. exact (conj I I). Qed.
Lemma pp_addErrSub : forall a b, pp (addErrSub a b) any.
Proof. intros. apply pp_same. intros []. cbn. auto 10. Qed.
Lemma pp_pushPath : forall a, pp (pushPath a) any.
Proof. intros. apply pp_same. intros []. cbn. auto 10. Qed.
Lemma pp_popPath : forall a, pp (popPath a) any.
Proof. intros. apply pp_same. intros []. cbn. auto 10. Qed.
Lemma before_pipe : forall d p, pointerOf d = "" -> pointerOf (beforeChar "|" (refKey d p)) = "".
Proof.
  intros d p. unfold refKey. induction d as [|c d IH]; intros H; [reflexivity|]. cbn [append beforeChar pointerOf] in *.
  destruct (Ascii.eqb c "#") eqn:X; [discriminate H|]. destruct (Ascii.eqb c "|"); [reflexivity|]. cbn [pointerOf]. rewrite X. auto.
Qed.
Lemma pp_pushRes : forall d p, pointerOf d = "" -> pp (pushRes d p) any.
Proof.
  intros d p Hd. apply pp_mod. intros s (A & B & C & D & F & G).
  exact (conj A (conj B (conj C (conj D (conj F (fun k H => match H with or_introl H => eq_ind _ (fun k => pointerOf (beforeChar "|" k) = "") (before_pipe d p Hd) _ H | or_intror H => G k H end)))))).
Qed.
Lemma pp_popRes : pp popRes any.
Proof.
  apply pp_mod. intros s (A & B & C & D & F & G). refine (conj A (conj B (conj C (conj D (conj F _))))). intros k Hk. apply G. cbn [pStack withStack] in Hk. destruct (pStack s); [destruct Hk|right; exact Hk].
Qed.
Lemma pp_setResolving : forall d, pointerOf d = "" -> pp (setResolving d) any.
Proof. intros d Hd. apply pp_mod. intros s (A & B & C & D & F & G). exact (conj A (conj B (conj C (conj Hd (conj F G))))). Qed.
Lemma current_nohash : forall s, inv s -> pointerOf (currentResolutionDoc s) = "".
Proof. intros s (_&_&_&_&_&G). unfold currentResolutionDoc. destruct (pStack s); [reflexivity|apply G; left; reflexivity]. Qed.
Lemma pp_withDepth : forall a, pp (pmod (withDepth a)) any.
Proof. intros. apply pp_same. intros []. cbn. auto 10. Qed.
Lemma pp_warnIf : forall b f, pp (warnIf b f) any.
Proof. intros [] f; [apply pp_addErrSub|apply pp_ret; exact I]. Qed.
Lemma pp_warnAll : forall l, pp (warnAll l) any.
Proof. induction l; cbn [warnAll]; [apply pp_ret; exact I|]. apply pp_run; [apply pp_addErrSub|auto]. Qed.

(* the aliases of a document *)
Lemma walk_at : forall A (visit : list (string * json) -> string -> A -> A) (I : A -> Prop) (j0 : json) (p0 : string),
  (forall m p a, objectAt j0 p0 p m -> I a -> I (visit m p a)) -> forall a, I a -> I (walkJson visit j0 p0 a).
Proof.
  intros A visit I.
  cut (forall j0, (forall p0, (forall m p a, objectAt j0 p0 p m -> I a -> I (visit m p a)) -> forall a, I a -> I (walkJson visit j0 p0 a)) /\
       match j0 with JArr xs => Forall (fun x => forall p0, (forall m p a, objectAt x p0 p m -> I a -> I (visit m p a)) -> forall a, I a -> I (walkJson visit x p0 a)) xs | _ => True end).
  { intros C j0. apply C. }
  induction j0 using json_ind'; try (split; [intros; assumption|exact Logic.I]).
  - split; [intros; assumption|]. eapply Forall_impl; [|exact H]. intros x [Hx _]. exact Hx.
  - split; [|exact Logic.I]. intros p Hv a Ha. cbn [walkJson].
    apply Hv with (m := m) (p := p) in Ha; [|apply at_here]. revert Ha. generalize (visit m p a). clear a.
    assert (Hv' : forall k v, In (k, v) m -> (forall m' q a, objectAt v (p ++ "/" ++ k) q m' -> I a -> I (visit m' q a)) /\
      forall xs, v = JArr xs -> forall i x, nth_error xs i = Some x -> forall m' q a, objectAt x (p ++ "/" ++ k ++ "/" ++ itoa (Z.of_nat i)) q m' -> I a -> I (visit m' q a)).
    { intros k v Hin. split; [intros m' q a Hat; apply Hv; eapply at_member; eauto|]. intros xs -> i x Hx m' q a Hat. apply Hv. eapply at_element; eauto. }
    clear Hv. induction m as [|[k v] m IHm]; intros a Ha; auto. inversion H as [|? ? Hk Hr]; subst. cbn [snd] in Hk. apply IHm; auto.
    { intros k' v' Hin. apply Hv'. right. exact Hin. }
    destruct (Hv' k v (or_introl eq_refl)) as [V1 V2]. clear Hv' IHm. destruct v; auto.
    + destruct Hk as [_ Hk]. specialize (V2 l eq_refl).
      assert (G : forall xs i a, Forall (fun x => forall p0, (forall m p a, objectAt x p0 p m -> I a -> I (visit m p a)) -> forall a, I a -> I (walkJson visit x p0 a)) xs ->
         (forall j x, nth_error xs j = Some x -> forall m' q a, objectAt x (p ++ "/" ++ k ++ "/" ++ itoa (i + Z.of_nat j)) q m' -> I a -> I (visit m' q a)) -> I a ->
         I ((fix elems (xs : list json) (i : Z) (a : A) : A :=
                       match xs with
                       | [] => a
                       | x :: r' => elems r' (i + 1)
                           (match x with JObj _ => walkJson visit x (p ++ "/" ++ k ++ "/" ++ itoa i) a | _ => a end)
                       end) xs i a)).
      { induction xs as [|x xs IHx]; intros i b Fx Hx Hb; auto. inversion Fx as [|? ? F1 F2]; subst. apply IHx; auto.
        - intros j y Hy. replace (i + 1 + Z.of_nat j) with (i + Z.of_nat (S j)) by lia. exact (Hx (S j) y Hy).
        - destruct x; auto. apply F1; auto. intros m' q c Hat. apply (Hx 0%nat _ eq_refl). replace (i + Z.of_nat 0) with i by lia. exact Hat. }
      apply (G l 0 a Hk); auto.
    + destruct Hk as [Hk _]. apply Hk; auto.
Qed.
Lemma collect_plain : forall base d n k d' p, plainIds n -> In (k, (d', p)) (collectIds E base d n) -> d' = d /\ plainPointer p.
Proof.
  intros base d n k d' p Hn Hin. split; [exact (collectIds_doc E base d n _ Hin)|]. unfold collectIds in Hin.
  revert Hin. apply (walk_at _ _ (fun acc => In (k, (d', p)) (snd acc) -> plainPointer p)).
  - intros m q [bases result] Hat Ha. cbn [snd] in Ha. destruct (assoc "$id" m) as [[]|] eqn:Ei; auto. destruct (String.eqb s ""); auto.
    destruct (String.eqb (pxRelURI E _ s) ""); auto. destruct (String.eqb_spec q "") as [|Nq]; [exact Ha|].
    destruct (assoc (pxRelURI E _ s) result); [exact Ha|]. cbn [snd]. intros Hx. apply massign_In in Hx. destruct Hx as [Hx|Hx]; auto.
    injection Hx as _ _ ->. destruct (Hn q m s Hat Ei) as [X|X]; [contradiction|exact X].
  - intros [].
Qed.

Definition okErr {A} (Q : A -> Prop) (r : err A) : Prop := match r with Good a => Q a | Bad _ => True end.
Lemma pp_resolveDocument : forall d, pp (resolveDocument E d) (okErr tmc).
Proof.
  intros d s I. unfold resolveDocument. destruct (_ || _); [exact (conj I Logic.I)|].
  destruct (pxFetch E (pParsing s) (refDoc d)) as [n|] eqn:F; [|exact (conj I Logic.I)].
  destruct (Hfetch _ _ _ F) as [Cn Pn]. unfold pbind, addDocument, pmod, pret. split; [|exact Cn].
  destruct I as (A & B & C & D & G & K). cbn [pDocs withLog]. destruct (assoc (refDoc d) (pDocs s)) eqn:X; [exact (conj A (conj B (conj C (conj D (conj G K)))))|].
  refine (conj _ (conj _ (conj C (conj D (conj G K))))); cbn [pDocs pAliases withAliases withDone withDocs withLog].
  - intros d0 n0 H0. destruct (string_dec d0 (refDoc d)) as [->|Hn].
    + rewrite assoc_massign_same in H0. injection H0 as <-. exact Cn.
    + rewrite assoc_massign_other in H0 by auto. exact (A _ _ H0).
  - intros k d' p Hin. apply addAliases_In in Hin. destruct Hin as [Hin|Hin]; [exact (B _ _ _ Hin)|].
    destruct (collect_plain _ _ _ _ _ _ Pn Hin) as [-> Hp]. split; [apply refDoc_nohash|exact Hp].
Qed.
Lemma resolveSub_ok : forall o p r, tmsc (onode o) -> resolveSub o p = Ok r -> okErr tmc r.
Proof. intros o p [n|e] Ho H; cbn [okErr]; auto. eapply resolveSub_tame; eauto. Qed.
Lemma pp_resolvePath : forall ref, plainRef ref -> pp (resolvePath E ref) (okErr (fun x => tmc (fst x))).
Proof.
  intros ref Hr s I. pose proof (plain_refPath ref Hr) as Hp. unfold resolvePath. destruct (matchRef ref); [|exact (conj I Logic.I)].
  destruct (String.eqb (refDoc ref) "").
  - unfold bind. destruct (resolveSub (assoc (scope s) (pDocs s)) (refPath ref)) as [r|w|] eqn:R; auto.
    + split; [exact I|]. assert (okErr tmc r). { eapply resolveSub_ok; [|exact R]. destruct (assoc (scope s) (pDocs s)) eqn:A; [|apply tms_nil]. intros c [<-|[]]. exact (proj1 I _ _ A). }
      destruct r; auto.
    + exact (resolveSub_calm _ _ _ _ (proj2 Hp) R).
  - destruct (resolveDocRef E s (refDoc ref) (refPath ref)) as [[d pt]|e] eqn:R; [|exact (conj I Logic.I)].
    destruct (docRef_plain E Hid s _ _ _ _ (inv_named s I) Hp R) as [Hd Hpt].
    match goal with |- match ?m s with _ => _ end => set (act := m) end.
    assert (G : pp act (okErr (fun x => tmc (fst x)))).
    { subst act. eapply pp_bind with (R := okErr tmc).
      - destruct (assoc d (pDocs s)) eqn:A; [apply pp_ret; exact (proj1 I _ _ A)|apply pp_resolveDocument].
      - intros [n|e] Hn; [|apply pp_ret; exact Logic.I]. eapply pp_bind with (R := okErr tmc).
        + apply pp_lift; [intros r; apply resolveSub_ok; intros c [<-|[]]; exact Hn|]. intros w. apply resolveSub_calm. exact (proj2 Hpt).
        + intros [t|e] Ht; [|apply pp_ret; exact Logic.I]. apply pp_run; [apply pp_setResolving; exact Hd|apply pp_ret; exact Ht]. }
    exact (G s I).
Qed.
Lemma calm_ref : forall n r, tmc n -> sRef n = Some r -> plainRef r.
Proof. intros n r H R. exact (proj1 (tm_lc calmNode n H) r R). Qed.
Lemma pp_timeout : forall A (Q : A -> Prop), pp (plift Timeout) Q.
Proof. intros A Q s I. exact Logic.I. Qed.
Lemma pp_followRefs : forall f seen ref, plainRef ref -> pp (followRefs E f seen ref) (okErr tmc).
Proof.
  induction f as [|f IH]; intros seen ref Hr; cbn [followRefs]; [apply pp_timeout|].
  eapply pp_bind; [apply pp_resolvePath; exact Hr|]. intros [[n name]|e] Hn; cbn [okErr fst] in Hn.
  - destruct (mem_string name seen); [apply pp_run; [apply pp_addErrSub|apply pp_ret; exact I]|].
    destruct (sRef n) eqn:R; [apply IH; eapply calm_ref; eauto|apply pp_ret; exact Hn].
  - apply pp_run; [apply pp_addErrSub|apply pp_ret; exact I].
Qed.
Lemma pp_resolveReference : forall f ref, plainRef ref -> pp (resolveReference E f ref) (okErr tmc).
Proof.
  intros f ref Hr. unfold resolveReference. eapply pp_bind; [apply pp_followRefs; exact Hr|]. intros r H0. eapply pp_bind with (R := okErr tmc).
  - destruct r as [n|e]; [|apply pp_ret; exact I]. eapply pp_bind; [apply pp_get|]. intros s Is.
    destruct (rewriteNode E s n) as [n'|e] eqn:W; [apply pp_ret; exact (rewrite_calm E Hid s n n' (inv_named s Is) H0 W)|apply pp_run; [apply pp_addErrSub|apply pp_ret; exact I]].
  - intros out Ho. eapply pp_bind; [apply pp_get|]. intros s Is. apply pp_run; [apply pp_setResolving; exact (proj1 (proj2 (proj2 Is)))|apply pp_ret; exact Ho].
Qed.
Lemma tm_unref : forall n, tmc n -> tmc (set_sRef None n).
Proof.
  intros n H. apply tm_fields in H. apply tm_fields. destruct H as [[_ B] F]. split; [|exact F]. split; [intros r X; discriminate X|exact B].
Qed.
Lemma pp_resolveNodeRef : forall f n, tmc n -> pp (resolveNodeRef E f n) (fun x => tmc (fst x)).
Proof.
  intros f n Hn. unfold resolveNodeRef. destruct (sRef n) as [ref|] eqn:Rf; [|apply pp_ret; exact Hn]. pose proof (calm_ref n ref Hn Rf) as Hr.
  eapply pp_bind; [apply pp_get|]. intros s Is. destruct (resolveRef E s ref) as [[d p]|e] eqn:R.
  - destruct (resolveRef_plain E Hid s ref d p (inv_named s Is) Hr R) as [Hd Hp].
    destruct (hasResolved s d p); [apply pp_ret; exact Hn|]. eapply pp_bind; [apply pp_resolveReference; apply plain_join; auto|]. intros [t|e] Ht.
    + apply pp_run; [apply pp_pushRes; exact Hd|apply pp_ret; exact Ht].
    + apply pp_run; [apply pp_addErrSub|apply pp_ret]. apply tm_unref; auto.
  - apply pp_run; [apply pp_addErrSub|apply pp_ret]. apply tm_unref; auto.
Qed.

Section MergeCalm.
Variable lc : schemaNode -> Prop.
Hypothesis lc_empty : lc emptyNode.
Hypothesis lc_into : forall rec m n s m' s', lc m -> lc n -> mergeInto rec m n s = Ok (m', s') -> lc m'.
Hypothesis lc_allOf : forall n, lc n -> lc (set_sAllOf None n).
Local Notation TM := (tm lc).
Local Notation TMS := (tms lc).
Hypothesis Hresolve : forall f n, TM n -> pp (resolveNodeRef E f n) (fun x => TM (fst x)).
Section Rec.
Variable rec : list schemaNode -> P schemaNode.
Hypothesis Hrec : forall nodes, TMS nodes -> pp (rec nodes) TM.
Lemma assign_tms' : forall k (v : schemaNode) l, TM v -> TMS (map snd l) -> TMS (map snd (massign k v l)).
Proof.
  induction l as [|[k' v'] l IH]; cbn [massign map snd]; intros Hv Hl; [apply tms_cons; auto|].
  apply tms_cons in Hl. destruct Hl. destruct (String.eqb k k'); cbn [map snd]; apply tms_cons; auto.
Qed.
Lemma assoc_tm' : forall k l n, TMS (map snd l) -> assoc k l = Some n -> TM n.
Proof.
  induction l as [|[k' v] l IH]; cbn [assoc map snd]; intros n H A; [discriminate|]. apply tms_cons in H. destruct H as [Hv Hl].
  destruct (String.eqb k k'); [injection A as <-; auto|auto].
Qed.
Lemma mapLoop_tame : forall node merged, TMS (map snd merged) -> TMS (map snd node) -> pp (mergeMapLoop rec merged node) (fun r => TMS (map snd r)).
Proof.
  induction node as [|[k v] node IH]; intros merged Hm Hn; cbn [mergeMapLoop map snd] in *; [apply pp_ret; auto|].
  apply tms_cons in Hn. destruct Hn as [Hv Hn]. destruct (assoc k merged) as [old|] eqn:A.
  - eapply pp_bind; [apply Hrec; apply two_tm; auto; eapply assoc_tm'; [|exact A]; auto|]. intros a Ha. apply IH; auto using assign_tms'.
  - apply IH; auto using assign_tms'.
Qed.
Lemma map_tame : forall a b, TMS (omaps a) -> TMS (omaps b) -> pp (mergeMap rec a b) (fun r => TMS (omaps r)).
Proof.
  intros a b Ha Hb. unfold mergeMap. destruct b as [l|]; [|apply pp_ret; auto].
  replace (omaps a) with (map snd (get_or a [])) in * by (destruct a; reflexivity).
  eapply pp_bind; [apply mapLoop_tame; auto|]. intros r Hr. apply pp_ret. exact Hr.
Qed.
Lemma prefixLoop_tame : forall merged node, TMS merged -> TMS node -> pp (mergePrefixLoop rec merged node) TMS.
Proof.
  induction merged as [|a ra IH]; intros [|b rb] Hm Hn; cbn [mergePrefixLoop]; try (apply pp_ret; auto; fail).
  apply tms_cons in Hm, Hn. destruct Hm as [Hma Hm], Hn as [Hna Hn]. eapply pp_bind; [apply Hrec; apply two_tm; auto|]. intros x Hx.
  eapply pp_bind; [apply IH; auto|]. intros y Hy. apply pp_ret. apply tms_cons; auto.
Qed.
Lemma prefix_tame : forall a b, TMS (olist a) -> TMS (olist b) -> pp (mergePrefix rec a b) (fun r => TMS (olist r)).
Proof.
  intros a b Ha Hb. unfold mergePrefix. destruct b as [l|]; [|apply pp_ret; auto].
  replace (olist a) with (get_or a []) in * by (destruct a; reflexivity).
  eapply pp_bind; [apply prefixLoop_tame; auto|]. intros r Hr. apply pp_ret. exact Hr.
Qed.
Lemma items_tame : forall a b, TMS (itemss a) -> TMS (itemss b) -> pp (mergeItems rec a b) (fun r => TMS (itemss r)).
Proof.
  intros a b Ha Hb. unfold mergeItems. destruct b as [[bn bl bd]|]; [|apply pp_ret; auto].
  cbn [itNode itDisallow]. destruct bn as [b|]; [|apply pp_ret; auto].
  assert (Hb' : TM b). { apply Hb. cbn. auto. }
  set (cur := get_or a (mkItems None None false)) in *.
  assert (Hc : itemss a = itemss (Some cur)). { unfold cur. destruct a; reflexivity. }
  rewrite Hc in *. clearbody cur. destruct cur as [cn cl cd]. cbn [itNode itNodes itDisallow].
  destruct (cd || bd). { apply pp_ret. apply tms_nil. }
  cbn [itemss itNode itNodes onode olist app] in Ha. destruct cn as [c|].
  - apply tms_cons in Ha. destruct Ha as [Hc1 Ha]. eapply pp_bind; [apply Hrec; apply two_tm; auto|]. intros x Hx. apply pp_ret.
    cbn [itemss itNode itNodes onode olist app]. apply tms_cons; auto.
  - apply pp_ret. cbn [itemss itNode itNodes onode olist app]. apply tms_cons; auto.
Qed.
Lemma nof_tame : forall a b, TMS (nofs a) -> TMS (nofs b) -> pp (mergeNof rec a b) (fun r => TMS (nofs r)).
Proof.
  intros a b Ha Hb. unfold mergeNof. destruct b as [[bn bf]|]; [|apply pp_ret; auto].
  destruct a as [[an af]|]; [|apply pp_ret; auto]. cbn [nofFalse nofSchema].
  destruct af; [apply pp_ret; auto|]. destruct bf; [apply pp_ret; auto|].
  destruct an as [x|], bn as [y|]; try (apply pp_ret; auto; fail).
  cbn [nofs nofSchema onode] in *. apply tms_cons in Ha, Hb. destruct Ha as [Ha _], Hb as [Hb _]. eapply pp_bind; [apply Hrec; apply two_tm; auto|].
  intros z Hz. apply pp_ret. apply tms_cons; split; auto; apply tms_nil.
Qed.
Lemma ptr_tame : forall a b, TMS (onode a) -> TMS (onode b) -> pp (mergePtr rec a b) (fun r => TMS (onode r)).
Proof.
  intros a b Ha Hb. unfold mergePtr. destruct a as [x|], b as [y|]; try (apply pp_ret; auto; fail).
  cbn [onode] in *. apply tms_cons in Ha, Hb. destruct Ha as [Ha _], Hb as [Hb _]. eapply pp_bind; [apply Hrec; apply two_tm; auto|].
  intros z Hz. apply pp_ret. apply tms_cons; split; auto; apply tms_nil.
Qed.
Lemma slice_tame : forall a b : option (list schemaNode), TMS (olist a) -> TMS (olist b) -> TMS (olist (mergeSlicePtrs a b)).
Proof.
  intros a b Ha Hb. unfold mergeSlicePtrs. replace (olist a) with (get_or a []) in * by (destruct a; reflexivity).
  replace (olist b) with (get_or b []) in * by (destruct b; reflexivity).
  destruct (get_or a [] ++ get_or b [])%list eqn:El; cbn [olist]; [apply tms_nil|].
  rewrite <- El. apply tms_app; auto.
Qed.
Lemma nots_tame : forall m n, TMS (onode (sNot m)) -> TMS (sMergedNot m) -> TMS (onode (sNot n)) -> TMS (sMergedNot n) ->
  TMS (onode (sNot (mergeNot m n))) /\ TMS (sMergedNot (mergeNot m n)).
Proof.
  intros m n A B C D. unfold mergeNot.
  destruct (sNot n) as [x|], (sNot m) as [y|] eqn:Em, (sMergedNot m) as [|p l] eqn:El, (sMergedNot n) as [|q k];
    cbn [sNot sMergedNot set_sNot set_sMergedNot onode]; rewrite ?Em, ?El; cbn [sNot sMergedNot set_sNot set_sMergedNot onode]; rewrite ?Em, ?El;
    cbn [onode app] in *;
    repeat match goal with
    | H : TMS (_ :: _) |- _ => apply tms_cons in H; destruct H
    end; split; rewrite ?tms_cons, ?tms_app, ?tms_cons, ?tms_app, ?tms_cons;
    auto using tms_nil; intuition (auto using tms_nil).
Qed.
Lemma ifs_tame : forall path m n, TMS (flat_map ifs (sMergedIf m)) -> TMS (flat_map ifs (sMergedIf n)) -> TMS (onode (sIf n)) -> TMS (onode (sThen n)) ->
  TMS (onode (sElse n)) -> TMS (flat_map ifs (sMergedIf (mergeIf path m n))).
Proof.
  intros path m n A B C D F. unfold mergeIf. cbn [set_sMergedIf sMergedIf]. destruct (sIf n) as [x|] eqn:Ei.
  - rewrite !flat_map_app. cbn [flat_map]. unfold ifs at 3. cbn [newIf ifIf ifThen ifElse]. rewrite Ei.
    rewrite !tms_app; auto 10 using tms_nil.
  - rewrite !flat_map_app. rewrite !tms_app; auto.
Qed.
Lemma pp_ok : forall A (m : P A) (Q : A -> Prop), pp m Q -> forall s a s', inv s -> m s = Ok (a, s') -> inv s' /\ Q a.
Proof. intros A m Q H s a s' I K. specialize (H s I). rewrite K in H. exact H. Qed.
Lemma into_any : forall m n, TM m -> TM n -> pp (mergeInto rec m n) any.
Proof.
  intros m n Hm Hn. apply tm_fields in Hm, Hn. destruct Hm as [_ Hm], Hn as [_ Hn]. unfold mergeInto. cbv zeta.
  pose proof (mergeEnum_shape (set_sType (mergeTypes (sType m) (sType n)) m) n) as (en & co & Sh).
  destruct (mergeEnum (set_sType (mergeTypes (sType m) (sType n)) m) n) as [m1 em]. cbn [fst] in Sh.
  assert (H1 : eachField TMS m1) by (rewrite Sh; exact Hm). clear Sh Hm. unfold eachField in H1, Hn.
  destruct H1 as (M1&M2&M3&M4&M5&M6&M7&M8&_). destruct Hn as (N1&N2&N3&N4&N5&N6&N7&N8&_).
  apply pp_run; [destruct em; [apply pp_addErrSub|apply pp_ret; exact I]|].
  eapply pp_bind; [apply map_tame; assumption|]. intros x1 _. eapply pp_bind; [apply nof_tame; assumption|]. intros x2 _.
  eapply pp_bind; [apply map_tame; assumption|]. intros x3 _. eapply pp_bind; [apply prefix_tame; assumption|]. intros x4 _.
  eapply pp_bind; [apply items_tame; assumption|]. intros x5 _. eapply pp_bind; [apply nof_tame; assumption|]. intros x6 _.
  eapply pp_bind; [apply nof_tame; assumption|]. intros x7 _. eapply pp_bind; [apply ptr_tame; assumption|]. intros x8 _.
  eapply pp_bind; [apply pp_get|]. intros s _. apply pp_run; [apply pp_warnAll|]. apply pp_ret. exact I.
Qed.
Lemma into_tame : forall m n, TM m -> TM n -> pp (mergeInto rec m n) TM.
Proof.
  intros m n Hm Hn. apply pp_with; [apply into_any; auto|]. intros s m' s' I H. apply tm_fields in Hm, Hn. destruct Hm as [Lm Hm], Hn as [Ln Hn].
  pose proof (lc_into rec m n s m' s' Lm Ln H) as LM.
  unfold eachField in Hm, Hn.
  destruct Hm as (M1&M2&M3&M4&M5&M6&M7&M8&M9&M10&M11&M12&M13&M14&M15&M16&M17&M18&M19&M20).
  destruct Hn as (N1&N2&N3&N4&N5&N6&N7&N8&N9&N10&N11&N12&N13&N14&N15&N16&N17&N18&N19&N20).
  fields H.
  assert (I1 : inv s1). { rewrite Hs1. destruct (snd _); [destruct s|]; exact I. }
  destruct (pp_ok _ _ _ (map_tame _ _ M1 N1) _ _ _ I1 H1) as [I2 Q1]. destruct (pp_ok _ _ _ (nof_tame _ _ M2 N2) _ _ _ I2 H2) as [I3 Q2].
  destruct (pp_ok _ _ _ (map_tame _ _ M3 N3) _ _ _ I3 H3) as [I4 Q3]. destruct (pp_ok _ _ _ (prefix_tame _ _ M6 N6) _ _ _ I4 H4) as [I5 Q4].
  destruct (pp_ok _ _ _ (items_tame _ _ M4 N4) _ _ _ I5 H5) as [I6 Q5]. destruct (pp_ok _ _ _ (nof_tame _ _ M7 N7) _ _ _ I6 H6) as [I7 Q6].
  destruct (pp_ok _ _ _ (nof_tame _ _ M8 N8) _ _ _ I7 H7) as [I8 Q7]. destruct (pp_ok _ _ _ (ptr_tame _ _ M5 N5) _ _ _ I8 H8) as [I9 Q8].
  assert (I10 : inv s'). { destruct H9 as [fl H9]. exact (proj1 (pp_ok _ _ _ (pp_warnAll _) _ _ _ I9 H9)). }
  clear H1 H2 H3 H4 H5 H6 H7 H8 H9 Hs1.
  pose proof (slice_tame _ _ M10 N10) as K1. pose proof (slice_tame _ _ M11 N11) as K2. pose proof (slice_tame _ _ M12 N12) as K3.
  pose proof (nots_tame m n M9 M20 N9 N20) as K4. pose proof (ifs_tame (pPath s9) m n M19 N19 N15 N16 N17) as K5.
  destruct K4 as (P12 & P13). rewrite <- Ent in *. rewrite <- Emn in *. rewrite <- Emi in *. 
  apply tm_fields. split; [exact LM|].
  clear LM. unfold eachField. subst m'. cbn [sProperties sAdditionalProperties sPatternProperties sItems sContains sPrefixItems
      sAdditionalItems sUnevaluatedItems sNot sAllOf sAnyOf sOneOf sDefs sDefinitions sIf sThen sElse sDependentSchemas sMergedIf sMergedNot].
  repeat (split; [assumption|]). assumption.
Qed.
Lemma residual_tame : forall m l, TM m -> sAllOf m = Some l -> TMS (l ++ [set_sAllOf None m]).
Proof.
  intros m l Hm A. apply tms_app. apply tm_fields in Hm. destruct Hm as [R Hm]. split.
  - unfold eachField in Hm. rewrite A in Hm. cbn [olist] in Hm. tauto.
  - apply tms_cons. split; [|apply tms_nil]. apply tm_fields. split; [apply lc_allOf; exact R|]. unfold eachField in *.
      cbn [set_sAllOf sProperties sAdditionalProperties sPatternProperties sItems sContains sPrefixItems
      sAdditionalItems sUnevaluatedItems sNot sAllOf sAnyOf sOneOf sDefs sDefinitions sIf sThen sElse sDependentSchemas sMergedIf sMergedNot].
      cbn [olist]. pose proof (tms_nil lc). tauto.
Qed.
Lemma one_tame : forall f m n, TM m -> TM n -> pp (mergeOne E rec f m n) TM.
Proof.
  intros f m n Hm Hn. unfold mergeOne. eapply pp_bind; [apply Hresolve; exact Hn|]. intros [n1 resolved] Hn1. cbn [fst] in Hn1.
  eapply pp_bind with (R := TM).
  - destruct (sAllOf n1) as [subs|] eqn:A; [|apply pp_ret; auto]. destruct resolved; [|apply pp_ret; auto]. apply Hrec. apply residual_tame; auto.
  - intros n2 Hn2. eapply pp_bind; [apply into_tame; auto|]. intros r Hr. destruct resolved; [|apply pp_ret; auto].
    apply pp_run; [apply pp_popRes|]. eapply pp_bind; [apply pp_get|]. intros s Is. apply pp_run; [apply pp_setResolving; apply current_nohash; exact Is|apply pp_ret; auto].
Qed.
Lemma loop_tame : forall f nodes m, TM m -> TMS nodes -> pp (mergeLoop E rec f m nodes) TM.
Proof.
  induction nodes as [|n r IH]; intros m Hm Hn; cbn [mergeLoop]; [apply pp_ret; auto|].
  apply tms_cons in Hn. destruct Hn as [Hn Hr]. eapply pp_bind; [apply one_tame; auto|]. intros m1 Hm1. apply IH; auto.
Qed.
Lemma flatten_tame : forall f m, TM m -> pp (flatten E rec f m) TM.
Proof.
  induction f as [|f IH]; intros m Hm; cbn [flatten]; [apply pp_timeout|].
  destruct (sAllOf m) as [[|x l]|] eqn:A; try (apply pp_ret; auto; fail).
  eapply pp_bind; [apply pp_get|]. intros s _. destruct (pxMaxDepth E <? pDepth s + 1); [apply pp_ret; auto|].
  apply pp_run; [apply pp_withDepth|]. eapply pp_bind; [apply Hrec; apply residual_tame; auto|]. intros m1 Hm1.
  eapply pp_bind; [apply pp_get|]. intros s1 _. apply pp_run; [apply pp_withDepth|]. apply IH; auto.
Qed.
End Rec.
Theorem merge_calm : forall f nodes, TMS nodes -> pp (merge E f nodes) TM.
Proof.
  induction f as [|f IH]; intros nodes Hn; cbn [merge]; [apply pp_timeout|].
  eapply pp_bind; [apply loop_tame; auto using tm_empty|]. intros m Hm. apply flatten_tame; auto.
Qed.
End MergeCalm.

(* ------------------------------------------------------------------ the two instances *)
Lemma calm_into : forall rec m n s m' s', calmNode m -> calmNode n -> mergeInto rec m n s = Ok (m', s') -> calmNode m'.
Proof.
  intros rec m n s m' s' [M1 M2] [N1 N2] H. fields H.
  assert (K : tms lcc (onode (sNot (mergeNot m n))) /\ tms lcc (sMergedNot (mergeNot m n))).
  { apply nots_tame; intros x Hx; first [exact (M2 x (or_introl Hx))|exact (M2 x (or_intror Hx))|exact (N2 x (or_introl Hx))|exact (N2 x (or_intror Hx))]. }
  rewrite <- Ent, <- Emn in K. clear -Em M1 N1 K. subst m'. unfold calmNode. cbn [sRef sNot sMergedNot]. split.
  - intros r Hr. destruct (sRef n) eqn:R; auto.
  - intros x [Hx|Hx]; [exact (proj1 K x Hx)|exact (proj2 K x Hx)].
Qed.
Lemma lcc_into : forall rec m n s m' s', lcc m -> lcc n -> mergeInto rec m n s = Ok (m', s') -> lcc m'.
Proof.
  intros rec m n s m' s' [M1 M2] [N1 N2] H. fields H. clear -Em M1 N1 M2 N2. subst m'. unfold lcc. cbn [sRef sUniqueItems].
  rewrite M1, N1, M2, N2. split; reflexivity.
Qed.
Lemma clean_resolve : forall f n, tm lcc n -> pp (resolveNodeRef E f n) (fun x => tm lcc (fst x)).
Proof. intros f n Hn. unfold resolveNodeRef. rewrite (proj1 (tm_lc lcc n Hn)). apply pp_ret. exact Hn. Qed.
Theorem calm_merge : forall f nodes, tms calmNode nodes -> pp (merge E f nodes) (tm calmNode).
Proof. intros f nodes. apply merge_calm; [exact calm_empty|exact calm_into|intros n H; exact H|exact pp_resolveNodeRef]. Qed.
Theorem clean_merge : forall f nodes, tms lcc nodes -> pp (merge E f nodes) (tm lcc).
Proof. intros f nodes. apply merge_calm; [exact lcc_empty|exact lcc_into|intros n H; exact H|exact clean_resolve]. Qed.

(* ------------------------------------------------------------------ negations: a calm node, a clean negated one *)
Notation tmx := (tm lcc).
Notation tmsx := (tms lcc).
Lemma any_bind : forall A B (m : P A) (k : A -> P B) (Q : B -> Prop), pp m any -> (forall a, pp (k a) Q) -> pp (pbind m k) Q.
Proof. intros A B m k Q Hm Hk. eapply pp_bind; [exact Hm|]. intros a _. apply Hk. Qed.
Lemma pp_if : forall A (b : bool) (m k : P A) (Q : A -> Prop), pp m Q -> pp k Q -> pp (if b then m else k) Q.
Proof. intros A [] m k Q Hm Hk; auto. Qed.
Lemma any_warnField : forall f, pp (warnField f) any.
Proof. intros f. apply pp_addErrSub. Qed.
Lemma any_boundsInt : forall f a b c d, pp (resolveBoundsInt f a b c d) any.
Proof.
  intros f a b c d. unfold resolveBoundsInt. destruct (boundsInt a b c d) as [[x y] w]. apply any_bind; [apply pp_warnIf|intros; apply pp_ret; exact I].
Qed.
Lemma or_tm : forall (lc : schemaNode -> Prop) o, lc emptyNode -> tms lc (onode o) -> tm lc (get_or o emptyNode).
Proof. intros lc [n|] He H; cbn [get_or]; [apply H; left; auto|apply tm_empty; exact He]. Qed.
Lemma orc : forall o, tmsc (onode o) -> tmc (get_or o emptyNode).
Proof. intros o. apply or_tm. exact calm_empty. Qed.
Lemma orx : forall o, tmsx (onode o) -> tmx (get_or o emptyNode).
Proof. intros o. apply or_tm. exact lcc_empty. Qed.
Section Not.
Variable rec : schemaNode -> schemaNode -> P nstate.
Hypothesis Hrec : forall n x, tmc n -> tmx x -> pp (rec n x) (fun st => tmc (fst st)).
Lemma tm_constraints : forall c n, tmc n -> tmc (set_sConstraints c n).
Proof. intros c n H. apply tm_fields in H. apply tm_fields. exact H. Qed.
Lemma notSub_calm : forall sc n x, tmc n -> tmx x -> pp (notSub rec sc n x) tmc.
Proof.
  intros sc n x Hn Hx. unfold notSub. apply pp_run; [apply pp_pushPath|]. eapply pp_bind; [apply Hrec; auto|]. intros [m c] Hm. cbn [fst] in Hm. cbv zeta.
  apply pp_run; [apply pp_popPath|]. apply pp_ret. apply tm_constraints. exact Hm.
Qed.
Lemma one_tms : forall n, tmc n -> tmsc [n].
Proof. intros n H c [<-|[]]. exact H. Qed.
Lemma notSubPtr_calm : forall sc n x, tmsc (onode n) -> tmsx (onode x) -> pp (notSubPtr rec sc n x) (fun r => tmsc (onode r)).
Proof.
  intros sc n x Hn Hx. unfold notSubPtr.
  assert (G : pp (let* m := notSub rec sc (get_or n emptyNode) (get_or x emptyNode) in pret (Some m)) (fun r => tmsc (onode r))).
  { eapply pp_bind; [apply notSub_calm; auto using orc, orx|]. intros m Hm. apply pp_ret. apply one_tms. exact Hm. }
  destruct n, x; auto. apply pp_ret. apply tms_nil.
Qed.
Lemma notNof_calm : forall sc n x, tmsc (nofs n) -> tmsx (nofs x) -> pp (notNof rec sc n x) (fun r => tmsc (nofs r)).
Proof.
  intros sc n x Hn Hx. unfold notNof.
  assert (G : pp (let n := get_or n (mkNOF None false) in let x := get_or x (mkNOF None false) in
    if nofFalse n then run* warnIf (nofFalse x) "" in pret (Some n)
      else let* m := notSub rec sc (get_or (nofSchema n) emptyNode) (get_or (nofSchema x) emptyNode) in
           pret (Some (mkNOF (Some m) false))) (fun r => tmsc (nofs r))).
  { cbn zeta. assert (Hn' : tmsc (nofs (Some (get_or n (mkNOF None false))))) by (destruct n; [exact Hn|apply tms_nil]).
    assert (Hx' : tmsx (nofs (Some (get_or x (mkNOF None false))))) by (destruct x; [exact Hx|apply tms_nil]).
    set (n' := get_or n _) in *. set (x' := get_or x _) in *. clearbody n' x'. destruct n' as [n' b], x' as [x' b']. cbn [nofFalse nofSchema nofs] in *.
    destruct b; [apply pp_run; [apply pp_warnIf|apply pp_ret; exact Hn']|].
    eapply pp_bind; [apply notSub_calm; auto using orc, orx|]. intros m Hm. apply pp_ret. apply one_tms. exact Hm. }
  destruct n, x; auto. apply pp_ret. apply tms_nil.
Qed.
Lemma notItems_calm : forall n x, tmsc (itemss n) -> tmsx (itemss x) -> pp (notItems rec n x) (fun r => tmsc (itemss r)).
Proof.
  intros n x Hn Hx. unfold notItems. destruct x as [[xn xl xd]|]; [|apply pp_ret; exact Hn]. cbv zeta.
  assert (Hn' : tmsc (itemss (Some (get_or n (mkItems None None false))))) by (destruct n; [exact Hn|apply tms_nil]).
  set (n' := get_or n _) in *. clearbody n'. destruct n' as [nn nl nd]. cbn [itDisallow itNode itNodes].
  assert (A : tmsc (onode nn)). { intros c Hc. apply Hn'. cbn [itemss itNode itNodes]. apply in_or_app. auto. }
  assert (B : tmsx (onode xn)). { intros c Hc. apply Hx. cbn [itemss itNode itNodes]. apply in_or_app. auto. }
  destruct (nd && xd); [apply pp_run; [apply any_warnField|apply pp_ret; exact Hn']|]. destruct nd; [apply pp_ret; exact Hn'|].
  apply pp_run; [apply pp_warnIf|].
  assert (G : pp (let* m := notSub rec "/not/items" (get_or nn emptyNode) (get_or xn emptyNode) in pret (Some (mkItems (Some m) None false))) (fun r => tmsc (itemss r))).
  { eapply pp_bind; [apply notSub_calm; auto using orc, orx|]. intros m Hm. apply pp_ret. apply one_tms. exact Hm. }
  destruct nn, xn; auto. apply pp_ret. apply tms_nil.
Qed.
Lemma notPrefixLoop_calm : forall n i d x, tmc d -> tmsc n -> tmsx x -> pp (notPrefixLoop rec i d n x) tmsc.
Proof.
  induction n as [|a n IH]; intros i d x Hd Hn Hx.
  - revert i. induction x as [|b x IHx]; intros i; [apply pp_ret; apply tms_nil|]. apply tms_cons in Hx. destruct Hx as [Hb Hx].
    cbn [notPrefixLoop]. eapply pp_bind; [apply notSub_calm; auto|]. intros m Hm.
    eapply pp_bind with (R := tmsc); [destruct x; exact (IHx Hx (i + 1))|]. intros r Hr. apply pp_ret. apply tms_cons; auto.
  - apply tms_cons in Hn. destruct Hn as [Ha Hn]. destruct x as [|b x]; cbn [notPrefixLoop].
    + eapply pp_bind; [apply notSub_calm; auto; apply tm_empty; exact lcc_empty|]. intros m Hm. eapply pp_bind; [apply IH; auto using tms_nil|]. intros r Hr. apply pp_ret. apply tms_cons; auto.
    + apply tms_cons in Hx. destruct Hx as [Hb Hx]. eapply pp_bind; [apply notSub_calm; auto|]. intros m Hm. eapply pp_bind; [apply IH; auto|]. intros r Hr. apply pp_ret. apply tms_cons; auto.
Qed.
Lemma notPrefix_calm : forall n x it, tmsc (olist n) -> tmsx (olist x) -> tmsc (itemss it) -> pp (notPrefix rec n x it) (fun r => tmsc (olist r)).
Proof.
  intros n x it Hn Hx Hi. unfold notPrefix. cbv zeta.
  assert (D : tmc (match it with Some it => get_or (itNode it) emptyNode | None => emptyNode end)).
  { destruct it as [[[a|] l b]|]; cbn [itNode get_or]; [apply Hi; left; reflexivity| |]; apply tm_empty; exact calm_empty. }
  set (d := match it with Some it => get_or (itNode it) emptyNode | None => emptyNode end) in *. clearbody d.
  assert (G : pp (let* r := notPrefixLoop rec 0 d (get_or n []) (get_or x []) in pret (Some r)) (fun r => tmsc (olist r))).
  { assert (Hn' : tmsc (get_or n [])) by (destruct n; [exact Hn|apply tms_nil]). assert (Hx' : tmsx (get_or x [])) by (destruct x; [exact Hx|apply tms_nil]).
    eapply pp_bind; [apply notPrefixLoop_calm; auto|]. intros r Hr. apply pp_ret. exact Hr. }
  destruct n, x; auto; apply pp_ret; apply tms_nil.
Qed.
Lemma notPropsLoop_calm : forall ks n x acc, tmsc (map snd n) -> tmsx (map snd x) -> tmsc (map snd acc) ->
  pp (notPropsLoop rec ks n x acc) (fun r => tmsc (map snd r)).
Proof.
  induction ks as [|k ks IH]; intros n x acc Hn Hx Ha; cbn [notPropsLoop]; [apply pp_ret; auto|].
  destruct (assoc k x) as [q|] eqn:Q.
  - eapply pp_bind; [apply notSub_calm|].
    + destruct (assoc k n) eqn:N; cbn [get_or]; [eapply assoc_tm'; [|exact N]; auto|apply tm_empty; exact calm_empty].
    + eapply assoc_tm'; [|exact Q]; auto.
    + intros m Hm. apply IH; auto. apply assign_tms'; auto.
  - apply IH; auto. destruct (assoc k n) eqn:N; auto. apply assign_tms'; auto. eapply assoc_tm'; [|exact N]; auto.
Qed.
Lemma mdelete_tms : forall k l, tmsc (map snd l) -> tmsc (map (@snd string schemaNode) (mdelete k l)).
Proof.
  induction l as [|[k' v] l IH]; cbn [mdelete map snd]; intros H; auto. apply tms_cons in H. destruct H.
  destruct (String.eqb k k'); cbn [map snd]; auto. apply tms_cons; auto.
Qed.
Lemma deletes_tms : forall gone l, tmsc (map snd l) -> tmsc (map (@snd string schemaNode) (fold_left (fun acc p => mdelete p acc) gone l)).
Proof. induction gone as [|k g IH]; intros l H; cbn [fold_left]; auto. apply IH. apply mdelete_tms. exact H. Qed.

(* a node that differs in keywords without sub-schemas *)
Lemma tm_like : forall n m, tmc n -> calmNode n = calmNode m -> eachField tmsc n = eachField tmsc m -> tmc m.
Proof. intros n m H A B. apply tm_fields in H. apply tm_fields. rewrite <- A, <- B. exact H. Qed.
Lemma notString_calm : forall st n x, tmc (fst st) -> pp (notApplyString E st n x) (fun r => tmc (fst r)).
Proof.
  intros [m c] n x Hm. cbn [fst] in Hm. unfold notApplyString. apply any_bind; [apply any_boundsInt|]. intros b. cbv zeta.
  assert (G : tmc (set_sMinLength (fst b) (set_sMaxLength (snd b) (set_sPattern (sPattern n) (set_sFormat (sFormat n) m))))) by (apply (tm_like m); auto).
  set (m' := set_sMinLength _ _) in *. clearbody m'.
  destruct (sPattern x) as [p|]; [|destruct (sFormat x) as [f|]];
  repeat first [apply pp_ret; exact G|apply pp_if|apply any_bind; [first [apply any_warnField|apply pp_warnIf|apply pp_addErrSub|apply pp_ret; exact I]|intros _]].
Qed.
Lemma notNumber_calm : forall st n x, tmc (fst st) -> pp (notApplyNumber st n x) (fun r => tmc (fst r)).
Proof.
  intros [m c] n x Hm. cbn [fst] in Hm. unfold notApplyNumber. cbv zeta.
  destruct (boundsFloat _ _ _ _ _ _ _ _ _) as [[[[mn mx] amn] amx] w].
  apply any_bind; [first [apply pp_warnIf|apply pp_if; [apply any_warnField|apply pp_ret; exact I]]|]. intros _.
  repeat first [apply pp_if|apply any_bind; [first [apply any_warnField|apply pp_warnIf|apply pp_addErrSub|apply pp_ret; exact I]|intros _]
   |apply pp_ret; cbn [fst]; apply (tm_like m); [exact Hm|reflexivity|reflexivity]].
Qed.
Lemma notEnum_calm : forall st n x, tmc (fst st) -> pp (notApplyEnum st n x) (fun r => tmc (fst r)).
Proof.
  intros [m c] n x Hm. cbn [fst] in Hm. unfold notApplyEnum. cbv zeta.
  repeat first [apply pp_ret; cbn [fst]; apply (tm_like m); [exact Hm|reflexivity|reflexivity]|apply pp_if
    |match goal with |- pp (match ?b with _ => _ end) _ => destruct b end
    |apply any_bind; [first [apply any_warnField|apply pp_warnIf|apply pp_addErrSub|apply pp_ret; exact I]|intros _]].
Qed.
Lemma notConst_calm : forall st n x, tmc (fst st) -> pp (notApplyConst st n x) (fun r => tmc (fst r)).
Proof.
  intros [m c] n x Hm. cbn [fst] in Hm. unfold notApplyConst. cbv zeta.
  repeat first [apply pp_ret; cbn [fst]; apply (tm_like m); [exact Hm|reflexivity|reflexivity]|apply pp_if
    |match goal with |- pp (match ?b with _ => _ end) _ => destruct b end
    |apply any_bind; [first [apply any_warnField|apply pp_warnIf|apply pp_addErrSub|apply pp_ret; exact I]|intros _]].
Qed.
Lemma notArray_calm : forall st n x, tmc (fst st) -> tmc n -> tmx x -> pp (notApplyArray rec st n x) (fun r => tmc (fst r)).
Proof.
  intros [m c] n x Hm Hn Hx. cbn [fst] in Hm. pose proof (proj2 (tm_lc lcc x Hx)) as Ux. apply tm_fields in Hm, Hn, Hx. unfold eachField in *. destruct Hm as [Lm Hm].
  unfold notApplyArray. apply any_bind; [apply any_boundsInt|]. intros bi. apply any_bind; [apply any_boundsInt|]. intros bc. cbv zeta.
  apply any_bind; [apply pp_warnIf|]. intros _. eapply pp_bind; [apply notItems_calm; tauto|]. intros its Hits.
  apply any_bind; [apply pp_warnIf|]. intros _. apply any_bind. { rewrite Ux. unfold resolveBool. destruct (sUniqueItems n); apply pp_ret; exact I. } intros un.
  eapply pp_bind; [apply notPrefix_calm; tauto|]. intros prx Hprx. eapply pp_bind; [apply notNof_calm; tauto|]. intros une Hune.
  eapply pp_bind; [apply notSubPtr_calm; tauto|]. intros con Hcon. apply pp_ret. cbn [fst]. apply tm_fields. split; [exact Lm|].
  clear Hn Hx. unfold eachField. tauto.
Qed.
Lemma notObject_calm : forall st n x, tmc (fst st) -> tmc n -> tmx x -> pp (notApplyObject rec st n x) (fun r => tmc (fst r)).
Proof.
  intros [m c] n x Hm Hn Hx. cbn [fst] in Hm. apply tm_fields in Hm, Hn, Hx. unfold eachField in *. destruct Hm as [Lm Hm].
  unfold notApplyObject. apply any_bind; [apply any_boundsInt|]. intros b. cbv zeta. eapply pp_bind; [apply notPropsLoop_calm; [| |apply tms_nil]|].
  - destruct (sProperties n); cbn [get_or]; [tauto|apply tms_nil].
  - destruct (sProperties x); cbn [get_or]; [tauto|apply tms_nil].
  - intros props Hp. apply any_bind; [apply pp_warnIf|]. intros _. eapply pp_bind; [apply notNof_calm; tauto|]. intros addp Ha. apply pp_ret. cbn [fst].
    pose proof (deletes_tms (filter (fun p => negb (mem_string p (get_or (sRequired n) []))) (get_or (sRequired x) [])) props Hp) as P'.
    set (ps := fold_left _ _ props) in *. clearbody ps. assert (PP : tmsc (omaps (sPatternProperties n))) by tauto. clear Hn Hx.
    destruct ps; apply tm_fields; (split; [exact Lm|]); unfold eachField; tauto.
Qed.
Lemma any_unsupported : forall x, pp (warnUnsupported x) any.
Proof. intros x. unfold warnUnsupported. repeat (apply any_bind; [apply pp_warnIf|intros _]). apply pp_warnIf. Qed.
Lemma notStep_calm : forall n x, tmc n -> tmx x -> pp (notStep E rec n x) (fun st => tmc (fst st)).
Proof.
  intros n x Hn Hx. unfold notStep. eapply pp_bind with (R := fun t => match t with Some m => tmc m | None => True end).
  - unfold notApplyType. destruct (resolveType n x); [apply pp_ret; apply (tm_like emptyNode); [apply tm_empty; exact calm_empty|reflexivity|reflexivity]|].
    apply any_bind; [first [apply any_warnField|apply pp_addErrSub]|]. intros _. apply pp_ret. exact I.
  - intros [m|] Hm; [|apply pp_ret; apply tm_empty; exact calm_empty].
    eapply pp_bind; [apply notString_calm; exact Hm|]. intros s1 H1. eapply pp_bind; [apply notNumber_calm; exact H1|]. intros s2 H2.
    eapply pp_bind; [apply notEnum_calm; exact H2|]. intros s3 H3. eapply pp_bind; [apply notConst_calm; exact H3|]. intros s4 H4.
    eapply pp_bind; [apply notArray_calm; auto; exact H4|]. intros s5 H5. eapply pp_bind; [apply notObject_calm; auto; exact H5|]. intros s6 H6.
    apply any_bind; [apply any_unsupported|]. intros _. apply pp_ret. cbn [fst]. clear -H6 Hn.
    apply tm_fields in H6, Hn. destruct H6 as [_ H6], Hn as [[A B] Hn]. apply tm_fields. split.
    + unfold keepFields. split; [exact A|]. intros y [[]|Hy]. cbn in Hy. apply in_app_or in Hy. destruct Hy as [Hy|Hy]; [apply B; auto|]. apply B. left. destruct (sNot n); exact Hy.
    + unfold eachField in *. unfold keepFields. cbv zeta.
      assert (X : tmsc (sMergedNot n ++ match sNot n with Some y => [y] | None => [] end)%list) by (apply tms_app; split; [tauto|destruct (sNot n); tauto]).
      assert (Y : tmsc (onode (@None schemaNode))) by (apply tms_nil). cbn beta zeta. tauto.
Qed.
End Not.
Theorem notMerge_calm : forall f n x, tmc n -> tmx x -> pp (notMerge E f n x) (fun st => tmc (fst st)).
Proof. induction f as [|f IH]; intros n x Hn Hx; cbn [notMerge]; [apply pp_timeout|]. apply notStep_calm; auto. Qed.
Lemma nots_calm : forall f xs n c, tmc n -> tmsx xs -> pp (applyNots E f n c xs) (fun st => tmc (fst st)).
Proof.
  induction xs as [|x xs IH]; intros n c Hn Hx; cbn [applyNots]; [apply pp_ret; auto|].
  apply tms_cons in Hx. destruct Hx as [Hx Hxs]. eapply pp_bind; [apply notMerge_calm; auto|]. intros st Hst. apply IH; auto.
Qed.

(* ------------------------------------------------------------------ parsing *)
Lemma resolveRef_nohash : forall s r d p, inv s -> resolveRef E s r = Good (d, p) -> pointerOf d = "".
Proof.
  intros s r d p I H. destruct (inv_named s I) as [A S]. unfold resolveRef in H. destruct (String.eqb _ _); [injection H as <- <-; exact S|].
  unfold resolveDocRef in H. destruct (if String.eqb _ _ then None else _) as [[d0 p0]|] eqn:X.
  - injection H as <- <-. destruct (String.eqb _ _) in X; [discriminate X|]. exact (proj1 (A _ _ _ X)).
  - destruct (negb _); [injection H as <- <-; exact S|]. destruct (pxResolveId E (pParsing s) (scope s) (refDoc r)) as [d0|] eqn:R; [|discriminate H]. injection H as <- <-. eapply Hid; eauto.
Qed.
Lemma any_good : forall A (x : A), pp (good x) any.
Proof. intros. apply pp_ret. exact I. Qed.
Lemma any_bad : forall A e, pp (@bad A e) any.
Proof. intros. apply pp_ret. exact I. Qed.
Lemma any_ret : forall A (x : A), pp (pret x) any.
Proof. intros. apply pp_ret. exact I. Qed.
Lemma any_get : pp pget any.
Proof. intros s I. exact (conj I Logic.I). Qed.
Create HintDb calmdb.
Hint Resolve any_good any_bad any_ret any_warnField pp_addErrSub pp_pushPath pp_popPath pp_withDepth pp_warnIf pp_popRes any_get : calmdb.
Ltac calms := repeat first
  [ progress (auto with calmdb)
  | apply any_bind; [solve [auto with calmdb]|intros ?]
  | match goal with |- pp (match ?b with _ => _ end) _ => destruct b end ].
Lemma any_compile : forall n f, pp (compileNode E n f) any.
Proof. intros n f s I. unfold compileNode. destruct (assoc _ (pRes s)); exact (conj I Logic.I). Qed.
Lemma any_addIdRef : forall p g, pp (addIdRef p g) any.
Proof. intros. apply pp_mod. intros s I. exact I. Qed.
Lemma any_addRef : forall g, pp (addRef g) any.
Proof. intros g s I. exact (any_addIdRef (pPath s) g s I). Qed.
Lemma any_deferred : forall ref, pp (deferredRef E ref) any.
Proof.
  intros ref s I. pose proof (resolveRef_nohash s ref) as N. unfold deferredRef. unfold resolveRef in N.
  destruct (String.eqb _ _); [exact (conj I Logic.I)|]. destruct (resolveDocRef E s _ _) as [[d p]|e]; [|exact (conj I Logic.I)].
  split; [|exact Logic.I]. specialize (N d p I eq_refl). destruct (_ && _); [|exact I]. destruct I as (A & B & C & D & F & G).
  refine (conj A (conj B (conj C (conj D (conj _ G))))). intros k Hk. cbn [pQueue withQueue] in Hk. apply in_app_or in Hk. destruct Hk as [Hk|[<-|[]]]; auto.
Qed.
Hint Resolve any_compile any_addIdRef any_addRef any_deferred : calmdb.
Lemma any_enum : forall n, pp (parseEnum E n) any.
Proof. intros n. unfold parseEnum. calms. Qed.
Lemma any_const : forall n v, pp (parseConst E n v) any.
Proof. intros n v. unfold parseConst. calms. Qed.
Lemma any_string : forall n, pp (parseString E n) any.
Proof. intros n. unfold parseString. cbv zeta. calms. Qed.
Lemma any_reference : forall ref, pp (parseReference E ref) any.
Proof. intros ref. unfold parseReference. calms. Qed.
Lemma any_num : forall n i, pp (parseNum n i) any.
Proof. intros n i. unfold parseNum. destruct (parseNumber n i) as [[f|g]|e]; auto with calmdb. Qed.
Hint Resolve any_enum any_const any_string any_reference any_num : calmdb.
Lemma tms_omaps : forall o, tmsc (omaps o) -> tmsc (map snd (get_or o [])).
Proof. intros [l|] H; [exact H|apply tms_nil]. Qed.
Lemma tms_olist : forall o, tmsc (olist o) -> tmsc (get_or o []).
Proof. intros [l|] H; [exact H|apply tms_nil]. Qed.
Lemma calm_nots : forall n, tmc n -> tmsx (collectNots n).
Proof.
  intros n Hn x Hx. destruct (tm_lc _ _ Hn) as [_ N]. unfold collectNots in Hx. apply in_app_or in Hx.
  destruct Hx as [Hx|Hx]; [|exact (N x (or_intror Hx))]. apply (N x). left. destruct (sNot n); exact Hx.
Qed.
Lemma lcc_tmc : forall x, tmx x -> tmc x.
Proof. exact lcc_calm. Qed.

Section Parse.
Variable recN recS : schemaNode -> P (err gen).
Variable mrg : list schemaNode -> P schemaNode.
Variable nots : schemaNode -> list schemaNode -> P nstate.
Hypothesis HN : forall n, tmc n -> pp (recN n) any.
Hypothesis HS : forall n, tmc n -> pp (recS n) any.
Hypothesis HM : forall l, tmsc l -> pp (mrg l) tmc.
Hypothesis HMx : forall l, tmsx l -> pp (mrg l) tmx.
Hypothesis HX : forall n l, tmc n -> tmsx l -> pp (nots n l) (fun st => tmc (fst st)).
Lemma any_pushSources : forall sc srcs, pp (pushSources E sc srcs) any.
Proof.
  induction srcs as [|n r IH]; cbn [pushSources]; [auto with calmdb|]. destruct (sRef n) as [ref|]; [|exact IH].
  eapply pp_bind; [apply pp_get|]. intros s Is. destruct (resolveRef E s ref) as [[d p]|e] eqn:R; [|calms].
  apply any_bind; [apply pp_pushRes; eapply resolveRef_nohash; eauto|]. intros _. calms.
Qed.
Lemma any_popMany : forall k, pp (popMany k) any.
Proof. induction k; cbn [popMany]; calms. Qed.
Lemma any_inScope : forall sc n srcs, tmc n -> pp (inScope E recN sc n srcs) any.
Proof.
  intros sc n srcs Hn. unfold inScope. apply any_bind; [auto with calmdb|]. intros _. apply any_bind; [apply any_pushSources|]. intros k.
  apply any_bind; [apply HN; exact Hn|]. intros r. apply any_bind; [apply any_popMany|]. intros _. calms.
Qed.
Lemma any_props : forall l, tmsc (map snd l) -> pp (parseProps E recN l) any.
Proof.
  induction l as [|[k n] l IH]; intros Hl; cbn [parseProps]; [auto with calmdb|]. cbn [map snd] in Hl. apply tms_cons in Hl. destruct Hl as [Hn Hl].
  apply any_bind; [apply any_inScope; exact Hn|]. intros r. apply any_bind; [exact (IH Hl)|]. intros gs. auto with calmdb.
Qed.
Lemma any_patterns : forall l, tmsc (map snd l) -> pp (parsePatterns E recN l) any.
Proof.
  induction l as [|[k n] l IH]; intros Hl; cbn [parsePatterns]; [auto with calmdb|]. cbn [map snd] in Hl. apply tms_cons in Hl. destruct Hl as [Hn Hl].
  apply any_bind; [apply any_inScope; exact Hn|]. intros r. cbv zeta. apply any_bind; [destruct (pxPropRegexOk E k); auto with calmdb|]. intros _.
  apply any_bind; [exact (IH Hl)|]. intros gs. auto with calmdb.
Qed.
Lemma any_object : forall n, tmc n -> pp (parseObject E recN n) any.
Proof.
  intros n Hn. apply tm_fields in Hn. destruct Hn as [_ F]. unfold parseObject. cbv zeta. unfold eachField in F. destruct F as (F1&F2&F3&_).
  repeat (apply pp_if; [apply any_bad|]). apply any_bind; [apply any_patterns; apply tms_omaps; exact F3|]. intros pats.
  apply any_bind; [apply any_props; apply tms_omaps; exact F1|]. intros ps. apply any_bind; [|intros; auto with calmdb].
  destruct (sAdditionalProperties n) as [[sub b]|]; cbn [get_or nofFalse nofSchema]; [|auto with calmdb]. destruct b; [auto with calmdb|]. destruct sub as [sub|]; [|auto with calmdb].
  apply any_bind; [apply any_inScope; apply F2; left; reflexivity|]. intros r. auto with calmdb.
Qed.
Lemma any_optScope : forall sc o, tmsc (onode o) -> pp (optScope E recN sc o) any.
Proof.
  intros sc [n|] Ho; cbn [optScope]; [|auto with calmdb]. apply any_bind; [apply any_inScope; apply Ho; left; reflexivity|]. intros [g|e]; auto with calmdb.
Qed.
Lemma any_tuple : forall l i, tmsc l -> pp (parseTuple E recN i l) any.
Proof.
  induction l as [|n l IH]; intros i Hl; cbn [parseTuple]; [auto with calmdb|]. apply tms_cons in Hl. destruct Hl as [Hn Hl].
  apply any_bind; [apply any_inScope; exact Hn|]. intros [g|e]; [|auto with calmdb]. apply any_bind; [exact (IH (i + 1) Hl)|]. intros [gs|e]; auto with calmdb.
Qed.
Ltac setter H := apply tm_fields in H; apply tm_fields; destruct H as [Lm Fm]; split; [exact Lm|]; unfold eachField in *;
  cbn [set_sContains set_sAllOf set_sOneOf set_sAnyOf set_sIf set_sThen set_sElse set_sMergedIf sProperties sAdditionalProperties sPatternProperties sItems sContains sPrefixItems
      sAdditionalItems sUnevaluatedItems sNot sAllOf sAnyOf sOneOf sDefs sDefinitions sIf sThen sElse sDependentSchemas sMergedIf sMergedNot onode olist flat_map]; pose proof (tms_nil calmNode); tauto.
Lemma any_contains : forall n, tmc n -> pp (parseContains E recN mrg n) any.
Proof.
  intros n Hn. apply tm_fields in Hn. destruct Hn as [_ F]. unfold eachField in F. destruct F as (_&_&_&F4&F5&_). unfold parseContains.
  destruct (sContains n) as [c|]; [|auto with calmdb]. assert (Hc : tmc c) by (apply F5; left; reflexivity).
  eapply pp_bind with (R := tmc).
  - destruct (sItems n) as [[[it|] l b]|]; cbn [itNode]; try (apply pp_ret; exact Hc).
    eapply pp_bind; [apply HM; apply two_tm; [apply F4; left; reflexivity|exact Hc]|]. intros m Hm. apply pp_ret. setter Hm.
  - intros c' Hc'. apply any_optScope. apply one_tms; auto.
Qed.
Lemma any_array : forall n, tmc n -> pp (parseArray E recN mrg n) any.
Proof.
  intros n Hn. pose proof Hn as Kn. apply tm_fields in Hn. destruct Hn as [_ F]. unfold parseArray. cbv zeta.
  repeat (apply pp_if; [apply any_bad|]). unfold eachField in F. destruct F as (F1&F2&F3&F4&F5&F6&F7&F8&_).
  apply any_bind; [apply any_optScope; destruct (sItems n) as [[i l b]|]; [destruct b; [apply tms_nil|]; cbn [itNode]; intros c Hc; apply F4; cbn [itemss itNode itNodes]; apply in_or_app; auto|apply tms_nil]|].
  intros [it|e]; [|apply any_bad].
  apply any_bind; [apply any_optScope; destruct (sAdditionalItems n) as [[i b]|]; [exact F7|apply tms_nil]|]. intros [ad|e]; [|apply any_bad].
  apply any_bind; [apply any_contains; exact Kn|]. intros [ct|e]; [|apply any_bad].
  apply any_bind; [apply any_tuple; unfold tupleNodes|].
  { assert (T : tmsc match sItems n with Some d => get_or (itNodes d) [] | None => [] end).
    { destruct (sItems n) as [[i l b]|]; [|apply tms_nil]. intros c Hc. apply F4. cbn [itemss itNode itNodes] in *. apply in_or_app. right. destruct l; exact Hc. }
    destruct (sPrefixItems n) as [[|x r]|]; auto. }
  intros [tu|e]; [|apply any_bad].
  apply any_bind; [apply any_optScope; destruct (sUnevaluatedItems n) as [[i b]|]; [destruct b; [apply tms_nil|exact F8]|apply tms_nil]|].
  intros [un|e]; auto with calmdb.
Qed.
Lemma any_type : forall t n, tmc n -> pp (parseType E recN mrg t n) any.
Proof. intros t n Hn. unfold parseType. repeat (apply pp_if; [solve [auto using any_object, any_array with calmdb]|]). auto with calmdb. Qed.
Lemma any_types : forall ts n, tmc n -> pp (parseTypes E recN mrg ts n) any.
Proof.
  induction ts as [|t ts IH]; intros n Hn; cbn [parseTypes]; [auto with calmdb|]. apply any_bind; [apply any_type; exact Hn|]. intros r.
  apply any_bind; [apply IH; exact Hn|]. intros gs. auto with calmdb.
Qed.
Lemma any_multiple : forall ts n, tmc n -> pp (parseMultiple E recN mrg ts n) any.
Proof. intros ts n Hn. unfold parseMultiple. apply any_bind; [apply any_types; exact Hn|]. intros gs. auto with calmdb. Qed.
Lemma any_allOf : forall n subs, tmc n -> sAllOf n = Some subs -> pp (parseAllOf E recN mrg n subs) any.
Proof.
  intros n subs Hn A. unfold parseAllOf. cbv zeta. eapply pp_bind.
  { apply HM. apply tms_app. split.
    - apply tm_fields in Hn. destruct Hn as [_ F]. unfold eachField in F. rewrite A in F. cbn [olist] in F. tauto.
    - apply one_tms. setter Hn. }
  intros m Hm. apply any_bind; [apply any_inScope; exact Hm|]. intros [g|e]; auto with calmdb.
Qed.
Lemma any_branches : forall one n l i, tmc n -> tmsc l -> pp (parseBranches E recN mrg one i n l) any.
Proof.
  induction l as [|x l IH]; intros i Hn Hl; cbn [parseBranches]; [auto with calmdb|].
  apply tms_cons in Hl. destruct Hl as [Hx Hl]. eapply pp_bind; [apply HM; apply one_tms; exact Hn|]. intros base Hb. cbv zeta.
  assert (Hb' : tmc (if one then set_sOneOf None base else set_sAnyOf None base)) by (destruct one; setter Hb).
  eapply pp_bind; [apply HM; apply two_tm; [exact Hb'|exact Hx]|]. intros m Hm. apply any_bind; [apply any_inScope; exact Hm|]. intros r.
  apply any_bind; [destruct (isBad r); auto with calmdb|]. intros _. apply any_bind; [apply IH; auto|]. intros gs. auto with calmdb.
Qed.
Lemma any_mergeEach : forall l, tmsc l -> pp (mergeEach mrg l) any.
Proof.
  induction l as [|n l IH]; intros Hl; cbn [mergeEach]; [auto with calmdb|]. apply tms_cons in Hl. destruct Hl as [Hn Hl].
  eapply pp_bind; [apply HM; apply one_tms; exact Hn|]. intros m Hm. apply any_bind; [exact (IH Hl)|]. intros r. auto with calmdb.
Qed.
Lemma any_compileBranches : forall l i, pp (compileBranches E i l) any.
Proof. induction l as [|n l IH]; intros i; cbn [compileBranches]; [auto with calmdb|]. cbv zeta. calms; apply any_bind; auto with calmdb; intros; auto with calmdb. Qed.
Lemma any_combination : forall n, tmc n -> pp (parseCombination E recN mrg n) any.
Proof.
  intros n Hn. pose proof Hn as Kn. apply tm_fields in Hn. destruct Hn as [_ F]. unfold eachField in F. destruct F as (_&_&_&_&_&_&_&_&_&_&F11&F12&_). unfold parseCombination. cbv zeta.
  apply any_bind; [apply any_branches; [exact Kn|]|].
  { destruct (match get_or (sOneOf n) [] with [] => false | _ => true end); apply tms_olist; assumption. }
  intros gs.
  assert (G : pp (match gs with [g] => good g | [] => bad "no branch" | _ => good (GComb gs) end) any) by (destruct gs as [|g [|g2 gs]]; auto with calmdb).
  destruct (get_or (sOneOf n) []) as [|x [|y l]] eqn:El; [exact G|exact G|].
  apply any_bind; [apply any_mergeEach; rewrite <- El; apply tms_olist; exact F12|]. intros es. apply any_bind; [apply any_compileBranches|]. intros cs. auto with calmdb.
Qed.
Lemma pp_partition : forall l i, tmsx l -> pp (partitionNots mrg i l) (fun p => tmsx (fst p) /\ tmsx (snd p)).
Proof.
  induction l as [|x l IH]; intros i Hl; cbn [partitionNots]; [apply pp_ret; split; apply tms_nil|]. cbv zeta.
  apply tms_cons in Hl. destruct Hl as [Hx Hl]. apply any_bind; [auto with calmdb|]. intros _.
  eapply pp_bind; [apply HMx; apply two_tm; [apply tm_empty; exact lcc_empty|exact Hx]|]. intros flat Hf.
  apply any_bind; [auto with calmdb|]. intros _. destruct (sNot flat) as [inner|] eqn:En.
  - apply any_bind; [auto with calmdb|]. intros _. eapply pp_bind; [apply HMx; apply two_tm; [apply tm_empty; exact lcc_empty|]|].
    { apply tm_fields in Hf. destruct Hf as [_ Ff]. unfold eachField in Ff. rewrite En in Ff. cbn [onode] in Ff. assert (T : tmsx [inner]) by tauto. apply T. left. reflexivity. }
    intros fi Hfi. apply any_bind; [auto with calmdb|]. intros _. eapply pp_bind; [apply IH; exact Hl|]. intros p [P1 P2]. apply pp_ret. split; [exact P1|]. cbn [snd]. apply tms_cons; auto.
  - eapply pp_bind; [apply IH; exact Hl|]. intros p [P1 P2]. apply pp_ret. split; [cbn [fst]; apply tms_cons; auto|exact P2].
Qed.
Lemma any_not : forall n, tmc n -> pp (parseNot recN recS mrg nots n) any.
Proof.
  intros n Hn. unfold parseNot. eapply pp_bind; [apply pp_partition; apply calm_nots; exact Hn|].
  intros [singles doubles] [P1 P2]. cbn [fst snd] in P1, P2. cbv zeta.
  assert (Hn' : tmc (set_sNot None (set_sMergedNot [] n))).
  { apply tm_fields in Hn. destruct Hn as [[A B] F]. apply tm_fields. split; [split; [exact A|intros x [[]|[]]]|]. unfold eachField in *.
    cbn [set_sNot set_sMergedNot sProperties sAdditionalProperties sPatternProperties sItems sContains sPrefixItems
      sAdditionalItems sUnevaluatedItems sNot sAllOf sAnyOf sOneOf sDefs sDefinitions sIf sThen sElse sDependentSchemas sMergedIf sMergedNot onode olist flat_map]. pose proof (tms_nil calmNode). tauto. }
  set (n' := set_sNot None (set_sMergedNot [] n)) in *. clearbody n'.
  eapply pp_bind with (R := tmc).
  { destruct doubles as [|d ds]; [apply pp_ret; exact Hn'|]. apply HM. apply tms_cons. split; [exact Hn'|]. intros x Hx. apply lcc_tmc. exact (P2 x Hx). }
  intros n2 Hn2. destruct singles as [|x l]; [apply HS; exact Hn2|]. eapply pp_bind; [apply HM; apply one_tms; exact Hn2|]. intros flat Hf.
  eapply pp_bind; [apply HX; [exact Hf|exact P1]|]. intros st Hst. apply any_bind; [apply HN; exact Hst|]. intros [g|e]; auto with calmdb.
Qed.
Lemma any_ifBody : forall f p b, tmc p -> tmsc (onode b) -> pp (parseIfBody E recN mrg f p b) any.
Proof.
  intros f p [b|] Hp Hb; cbn [parseIfBody]; [|auto with calmdb].
  assert (Hb' : tmc b) by (apply Hb; left; reflexivity). eapply pp_bind; [apply HM; apply two_tm; auto|]. intros m Hm.
  apply any_bind; [apply any_inScope; exact Hm|]. intros [g|e]; calms.
Qed.
Lemma any_compileIf : forall n f st, tmc n -> tmsc (ifs st) -> pp (compileIf E recN mrg n f st) any.
Proof.
  intros n f [p c t e] Hn Hs. unfold ifs in Hs. cbn [ifIf ifThen ifElse] in Hs. apply tms_app in Hs. destruct Hs as [_ Hs]. apply tms_app in Hs. destruct Hs as [Ht He].
  unfold compileIf. cbn [ifIf ifThen ifElse]. destruct c as [c|]; [|auto with calmdb].
  assert (G : pp (let* s := pget in let* k := compileNode E c (pPath s ++ "/" ++ f) in
          match k with Bad e => bad e | Good eff => let* t := parseIfBody E recN mrg "/then" n t in let* e := parseIfBody E recN mrg "/else" n e in good (eff, (t, e)) end) any).
  { apply any_bind; [auto with calmdb|]. intros s. apply any_bind; [auto with calmdb|]. intros [k|x]; [|auto with calmdb].
    apply any_bind; [apply any_ifBody; auto|]. intros t'. apply any_bind; [apply any_ifBody; auto|]. intros e'. auto with calmdb. }
  destruct t, e; try exact G. apply any_bad.
Qed.
Lemma any_compileIfs : forall n l i, tmc n -> tmsc (flat_map ifs l) -> pp (compileIfs E recN mrg i n l) any.
Proof.
  induction l as [|st l IH]; intros i Hn Hl; cbn [compileIfs]; [auto with calmdb|]. cbn [flat_map] in Hl. apply tms_app in Hl. destruct Hl as [Hs Hl].
  apply any_bind; [apply any_compileIf; auto|]. intros [k|x]; (apply any_bind; [auto with calmdb|]); intros; auto with calmdb.
Qed.
Lemma any_if : forall n, tmc n -> pp (parseIf E recN recS mrg n) any.
Proof.
  intros n Hn. pose proof Hn as Kn. apply tm_fields in Hn. destruct Hn as [_ F]. unfold eachField in F. unfold parseIf.
  apply any_bind; [auto with calmdb|]. intros s. cbv zeta.
  set (fs := (sMergedIf n ++ match sIf n with Some _ => [newIf n (pPath s)] | None => [] end)%list).
  assert (Hfs : tmsc (flat_map ifs fs)).
  { unfold fs. rewrite flat_map_app. apply tms_app. split; [tauto|]. destruct (sIf n) as [c|] eqn:Ei; [|apply tms_nil].
    cbn [flat_map]. unfold ifs, newIf. cbn [ifIf ifThen ifElse]. rewrite Ei. rewrite !tms_app. pose proof (tms_nil calmNode). tauto. }
  clearbody fs. assert (Hn' : tmc (set_sIf None (set_sThen None (set_sElse None (set_sMergedIf [] n))))) by (setter Kn).
  set (n' := set_sIf _ _) in *. clearbody n'. apply any_bind; [apply HS; exact Hn'|]. intros [g|e]; [|auto with calmdb].
  destruct fs as [|f0 fr]; [auto with calmdb|]. apply any_bind; [apply any_compileIfs; auto|]. intros [|]; calms.
Qed.
Lemma any_schema : forall n, tmc n -> pp (schemaStep E recN recS mrg nots n) any.
Proof.
  intros n Hn. unfold schemaStep. destruct (unsupported n); [auto with calmdb|]. destruct (sRef n); [auto with calmdb|].
  destruct (sAllOf n) eqn:A; [apply any_allOf; auto|]. apply pp_if; [apply any_combination; auto|]. apply pp_if; [apply any_not; auto|].
  apply pp_if; [apply any_if; auto|]. pose proof (fun t => any_type t n Hn) as T. pose proof (fun ts => any_multiple ts n Hn) as M. calms.
Qed.
Lemma any_node : forall n, tmc n -> pp (nodeStep E recS n) any.
Proof.
  intros n Hn. unfold nodeStep. apply any_bind; [auto with calmdb|]. intros s. apply any_bind; [auto with calmdb|]. intros _. apply any_bind.
  - apply pp_if; [auto with calmdb|]. apply any_bind; [apply pp_mod; intros t I; exact I|]. intros _. apply any_bind; [apply HS; exact Hn|]. intros r.
    apply any_bind; [destruct (isBad r); [apply pp_addErrSub|auto with calmdb]|]. intros _. cbv zeta. apply any_bind; [destruct (sId n); auto with calmdb|]. intros _. calms.
  - intros r. calms.
Qed.
End Parse.
Theorem parse_calm : forall f b n, tmc n -> pp (parseF E f b n) any.
Proof.
  induction f as [|f IH]; intros b n Hn; cbn [parseF]; [apply pp_timeout|]. destruct b.
  - apply any_schema; auto; intros.
    + apply calm_merge; auto.
    + apply clean_merge; auto.
    + apply nots_calm; auto.
  - apply any_node; auto.
Qed.
Lemma any_defs : forall fuel path l, tmsc (map snd l) -> pp (parseDefs E fuel path l) any.
Proof.
  induction l as [|[k n] l IH]; intros Hl; cbn [parseDefs]; [auto with calmdb|]. cbn [map snd] in Hl. apply tms_cons in Hl. destruct Hl as [Hn Hl].
  apply any_bind; [apply any_inScope; [|exact Hn]; intros m Hm; apply parse_calm; exact Hm|]. intros r. apply any_bind; [exact (IH Hl)|]. intros gs. auto with calmdb.
Qed.
Lemma any_root : forall fuel n, tmc n -> pp (parseRoot E fuel n) any.
Proof.
  intros fuel n Hn. pose proof Hn as Kn. apply tm_fields in Hn. destruct Hn as [_ F]. unfold eachField in F. unfold parseRoot.
  apply any_bind; [apply any_defs; apply tms_omaps; tauto|]. intros _. apply any_bind; [apply any_defs; apply tms_omaps; tauto|]. intros _.
  apply parse_calm. exact Kn.
Qed.
Lemma any_next : forall fuel id rest, pointerOf id = "" -> (forall d, In d rest -> pointerOf d = "") -> pp (parseNext E fuel id rest) any.
Proof.
  intros fuel id rest Hd Hr. unfold parseNext. apply any_bind.
  { apply pp_mod. intros s (A & B & C & D & F & G). exact (conj A (conj B (conj Hd (conj Hd (conj Hr G))))). }
  intros _. eapply pp_bind; [apply pp_resolveDocument|]. intros d Hd'. apply any_bind.
  - destruct d as [n|e]; [|auto with calmdb]. apply any_bind; [apply pp_mod; intros s I; exact I|]. intros _. apply any_bind; [apply any_root; exact Hd'|]. intros r. auto with calmdb.
  - intros []; auto with calmdb.
Qed.
Lemma any_drain : forall fuel k, pp (drain E fuel k) any.
Proof.
  induction k as [|k IH]; cbn [drain]; [apply pp_timeout|]. eapply pp_bind; [apply pp_get|]. intros s (_ & _ & _ & _ & Q & _). destruct (pQueue s) as [|id rest] eqn:Eq; [auto with calmdb|].
  apply any_bind; [apply any_next; [apply Q; left; reflexivity|intros d Hd; apply Q; right; exact Hd]|]. intros _. exact IH.
Qed.
Lemma alias_in : forall (l acc : list (string * (string * string))) k d p, In (k, (d, p)) (fold_left (fun acc kv => massign (fst kv) (snd kv) acc) l acc) -> In (k, (d, p)) l \/ In (k, (d, p)) acc.
Proof.
  induction l as [|[k0 v0] l IH]; intros acc k d p H; cbn [fold_left fst snd] in H; auto. apply IH in H. destruct H as [H|H]; [left; right; exact H|].
  apply massign_In in H. destruct H as [H|H]; [|auto]. left. left. congruence.
Qed.
Theorem doc_calm : forall fuel parsing rootId n, calm n -> plainIds n -> pointerOf parsing = "" -> pointerOf rootId = "" ->
  forall w, parseDoc E fuel parsing rootId n <> Panic w.
Proof.
  intros fuel parsing rootId n Hn Hids Hp Hr w H. unfold parseDoc in H.
  assert (G : pp (let* r := parseRoot E fuel n in run* drain E fuel fuel in pret r) any).
  { apply any_bind; [apply any_root; exact Hn|]. intros x. apply any_bind; [apply any_drain|]. intros _. auto with calmdb. }
  assert (I0 : inv (initP E parsing rootId n)).
  { refine (conj _ (conj _ (conj Hp (conj eq_refl (conj _ _))))); cbn [initP pDocs pAliases pQueue pStack].
    - intros d m. cbn [assoc]. destruct (String.eqb d rootId); intros X; [injection X as <-; exact Hn|discriminate X].
    - intros k d p X. apply alias_in in X. destruct X as [X|[]]. destruct (collect_plain _ _ _ _ _ _ Hids X) as [-> P]. exact (conj Hr P).
    - intros d [].
    - intros k []. }
  specialize (G _ I0). rewrite H in G. exact G.
Qed.
End Walk.
