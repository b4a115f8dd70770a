(* Proofs about references in the fragment of C47: the induction over the references entered. *)
From Coq Require Import ZArith Reals List String Ascii Bool Lia.
From Flocq Require Import Core BinarySingleNaN.
From Verif Require Import Base Float64 Json Schema NodeFacts Util Options Number Gen GenInv GenFacts GenValues PState RefPath Merge Parse PFacts ParseKeep.
From Verif Require Import MergeFacts MergeProps MergeValid SpecMerge SpecNumber SpecSchema SpecRun SpecFragment ValueProps ParseShape Sound SpecRef SpecParse SpecLinked.
From Verif Require SpecRefs.
Import ListNotations.
Open Scope string_scope.
Open Scope Z_scope.

(* ------------------------------------------------------------------ generating from a reference *)
Lemma ref_value : forall GE doc r st v st' h, yields GE (GRef doc r) st v st' -> target (eRefs GE) doc r = Some h ->
  ~ emitted EvCutoff st st' -> ~ emitted EvMaxDepth st st' -> (forall k, ~ emitted (EvCyclic k) st st') ->
  exists a b, yields GE h a v b /\ after st a /\ after b st' /\ (List.length (gLog st) < List.length (gLog a))%nat.
Proof.
  intros GE doc r st v st' h HY HT N1 N2 N3. pose proof (yields_after _ _ _ _ _ HY) as AF.
  apply yields_step in HY. destruct HY as (f & HY). cbn [genStep] in HY. unfold genRef in HY.
  apply guarded_ok in HY. destruct HY as [(_ & X & _)|(s1 & A1 & HY & _)]; [contradiction|].
  change (lookup GE doc r) with (target (eRefs GE) doc r) in HY. rewrite HT in HY.
  unfold getStack, bindM in HY. cbn beta iota in HY.
  destruct (oMaximumReferenceDepth (eOpts GE) <? _).
  { unfold emit, ret in HY. cbv beta iota in HY. injection HY as _ <-. exfalso. apply N2. eapply emitted_widen; [apply emitted_emit|exact A1|apply after_refl]. }
  destruct (mem_string _ _ && _).
  { unfold emit, ret in HY. cbv beta iota in HY. injection HY as _ <-. exfalso. eapply N3. eapply emitted_widen; [apply emitted_emit|exact A1|apply after_refl]. }
  unfold emit, pushRef, popRef, ret in HY. cbv beta iota in HY. cbn [gPos gGlob gCx gStack gLog] in HY.
  destruct (generate GE f h _) as [[w s2]| |] eqn:EG; try discriminate. injection HY as -> <-.
  eexists _, s2. split; [exists f; exact EG|]. destruct A1 as (B1 & B2 & B3 & l & B4). split; [|split].
  - unfold after. cbn [gPos gGlob gCx gStack gLog]. repeat split; auto. rewrite B4. eexists (_ :: l). reflexivity.
  - unfold after. cbn [gPos gGlob gCx gStack gLog]. repeat split; try lia. exists []. reflexivity.
  - cbn [gLog List.length]. rewrite B4, app_length. lia.
Qed.

Section Linked.
Variable PE : penv.
Variable GE : env.
Variable mt fm : string -> string -> Prop.
Variable rf : string -> json -> Prop.
Variable root : schemaNode.
Variable doc : string.
Variable D : nat.
Hypothesis HO : smallOptions (eOpts GE).
Hypothesis HR : reads mt fm root rf.
Hypothesis HD : Z.of_nat D <= pxMaxDepth PE.
(* every reference in the generator is one to this document *)
Definition fine (g : gen) : Prop := forall p dd q, SpecRefs.partAt g p (GRef dd q) -> dd = doc.
Hypothesis HT : forall r t, names root r t -> linked PE GE mt fm rf root D t /\
  exists h, target (eRefs GE) doc r = Some h /\ fine h /\ exists f s s', parseNode PE f t s = Ok (Good h, s') /\ pErrs s' = [] /\ pDepth s = 0.

Definition calm (k : nat) (a b : gst) : Prop :=
  ~ emitted EvCutoff a b /\ ~ emitted EvMaxDepth a b /\ (forall c, ~ emitted (EvCyclic c) a b) /\ (List.length (gLog b) < k + List.length (gLog a))%nat.
Lemma calm_wide : forall k a b a' b', calm k a b -> after a a' -> after b' b -> calm k a' b'.
Proof.
  intros k a b a' b' (A & B & C & L) X Y. split; [|split; [|split]].
  - intros E. apply A. eapply emitted_widen; eauto.
  - intros E. apply B. eapply emitted_widen; eauto.
  - intros c E. apply (C c). eapply emitted_widen; eauto.
  - destruct X as (_ & _ & _ & l & Hl). destruct Y as (_ & _ & _ & l' & Hl'). rewrite Hl, app_length. rewrite Hl', app_length in L. lia.
Qed.
Lemma fine_inner : forall g, fine g -> inner fine g.
Proof. intros g F st h P p dd q A. eapply F. eapply SpecRefs.part_further; eauto. Qed.

Lemma names_local : forall r t, names root r t -> exists q, r = String "#" q /\ hasChar "010" q = false.
Proof.
  assert (X : forall q, ~ In "010"%char (list_ascii_of_string q) -> hasChar "010" q = false).
  { induction q as [|c q IH]; intros HN; [reflexivity|]. cbn [hasChar list_ascii_of_string] in *.
    destruct (Ascii.eqb_spec c "010"); [exfalso; apply HN; left; assumption|]. apply IH. intros Y. apply HN. right. exact Y. }
  intros r t N. destruct N as [|kwd k c [<-|[<-|[]]] NK _]; eexists; (split; [reflexivity|]); [reflexivity| |]; change (hasChar "010" k = false); apply X; exact NK.
Qed.
Lemma ref_parsed : forall n r t f s g s', sRef n = Some r -> names root r t -> stepF PE f n s = Ok (Good g, s') -> exists dd, g = GRef dd r.
Proof.
  intros n r t f s g s' ER N H. unfold stepF, schemaStep in H. destruct (unsupported n); [unfold bad in H; apply pret_ok in H; destruct H as [H _]; discriminate|].
  rewrite ER in H. unfold parseReference in H. destruct (containsStr _ r); [unfold bad in H; apply pret_ok in H; destruct H as [H _]; discriminate|].
  apply pbind_ok in H. destruct H as (x & s1 & H1 & H). destruct (names_local r t N) as (q & -> & HQ).
  unfold deferredRef, refDoc, refPath in H1. assert (M : matchRef (String "#" q) = Some ("", String "#" q)).
  { unfold matchRef. cbn [splitHash]. change (Ascii.eqb "#" "#") with true. cbn iota. cbn [hasChar]. rewrite HQ. reflexivity. }
  rewrite M in H1. cbn [String.eqb] in H1. injection H1 as <- <-. apply good_ok in H. destruct H as [-> _]. eexists. reflexivity.
Qed.

Lemma bare_valid : forall r ds dd v, rf r v -> valid mt fm rf (set_sRef (Some r) (set_sDefs ds (set_sDefinitions dd emptyNode))) v.
Proof.
  intros r ds dd v H. apply valid_eq. cbn. unfold okFlat, okType, okEnum, okConst, okString, okNumber, okArray, okObject, okRange, okBounds, okMultipleOf. cbn.
  repeat split; intros; try discriminate; auto.
Qed.

Theorem linked_sound : forall k d n, linked PE GE mt fm rf root d n -> forall f s g s', parseNode PE f n s = Ok (Good g, s') -> pErrs s' = [] ->
  pDepth s + Z.of_nat d <= pxMaxDepth PE -> fine g -> Q GE (valid mt fm rf) (calm k) n g.
Proof.
  induction k as [|k IHk]; [intros d n _ f s g s' _ _ _ _ st v st' Y (_ & _ & _ & L); pose proof (yields_after _ _ _ _ _ Y) as (_ & _ & _ & l & Hl); rewrite Hl, app_length in L; lia|].
  induction d as [|d IH]; intros n H f s g s' HP HE HDp HF; [destruct H|]. cbn [linked] in H.
  assert (HC : sConstraints n = None).
  { destruct H as [(r & t & ds & dd & -> & _)|[[H _]|[[H _]|(_ & H & _)]]]; [reflexivity|apply H|apply H|apply H]. }
  apply node_clean in HP; auto. destruct HP as (D1 & f' & s1 & s2 & H1 & D2 & D3 & l & Hl).
  assert (E2 : pErrs s2 = []) by (rewrite HE in Hl; symmetry in Hl; apply app_eq_nil in Hl; tauto).
  intros st v st' HY NC.
  destruct H as [(r & t & ds & dd & -> & N)|[(HFl & l0 & EE & NE & V)|[(HFl & EE & x & EX & V)|(HS & HPl & HU & HL)]]].
  - destruct (ref_parsed (set_sRef (Some r) (set_sDefs ds (set_sDefinitions dd emptyNode))) r t f' s1 g s2 eq_refl N H1) as [dd' ->].
    assert (dd' = doc) by (eapply HF; apply SpecRefs.part_here). subst dd'.
    destruct (HT r t N) as (LT & h & T & Fh & f0 & s0 & s0' & P0 & E0 & Z0).
    destruct NC as (N1 & N2 & N3 & L). destruct (ref_value _ _ _ _ _ _ _ HY T N1 N2 N3) as (a & b & Y & A & B & LT').
    apply bare_valid. apply (HR r t v N). eapply (IHk D t LT f0 s0 h s0' P0 E0); [lia|exact Fh|exact Y|].
    destruct (calm_wide (S k) _ _ _ _ (conj N1 (conj N2 (conj N3 L))) A B) as (M1 & M2 & M3 & _).
    split; [exact M1|]. split; [exact M2|]. split; [exact M3|]. destruct B as (_ & _ & _ & l' & B). rewrite B, app_length in L. lia.
  - apply V. eapply enum_sound; eauto.
  - assert (v = x) by (eapply const_sound; eauto). subst v. exact V.
  - assert (X : shaped mt fm (valid mt fm rf) n v).
    { apply (plain_sound PE GE mt fm HO (valid mt fm rf) (calm (S k))) with (rf := rf) (trying := false) (fine := fine) (kid := linked PE GE mt fm rf root d)
        (d := Z.of_nat d) (f := f') (s := s1) (g := g) (s' := s2) (st := st) (st' := st'); auto; try lia.
      - intros a b X. apply X.
      - intros a b a' b'. apply calm_wide.
      - intros l1 m1 c1 v1 M1 C1 V1 I1. exact (merges_implies PE mt fm rf l1 m1 v1 M1 C1 V1 c1 I1).
      - exact fine_inner.
      - intros c q1 q2 q3 q4 X1 X2 X3 X4 X5. eapply IH; eauto.
      - intros c Hc. destruct d; [destruct Hc|lia]. }
    destruct X as (X1 & X2 & X3). apply valid_split; auto; apply HPl.
Qed.
End Linked.

(* ------------------------------------------------------------------ a reading exists *)
Lemma names_one : forall root r t t', names root r t -> names root r t' -> t = t'.
Proof.
  assert (X : forall a b k k' : string, In a ["$defs"; "definitions"] -> In b ["$defs"; "definitions"] -> "#/" ++ a ++ "/" ++ k = "#/" ++ b ++ "/" ++ k' -> a = b /\ k = k').
  { intros a b k k' [<-|[<-|[]]] [<-|[<-|[]]] E; cbn in E; try discriminate E; injection E as <-; auto. }
  intros root r t t' N M. inversion N as [|kwd k c I1 NK Hd E1]; inversion M as [|kwd' k' c' I2 NK' Hd' E2]; subst; auto.
  - destruct I2 as [<-|[<-|[]]]; discriminate.
  - destruct I1 as [<-|[<-|[]]]; discriminate.
  - destruct (X _ _ _ _ I2 I1 E2) as [-> ->]. congruence.
Qed.

Lemma every_mono : forall A (f g : A -> Prop) l, (forall x, In x l -> f x -> g x) -> every f l -> every g l.
Proof. induction l as [|x l IH]; cbn; intros H; [auto|]. intros [A1 A2]. split; [apply H; auto|apply IH; auto]. Qed.
Lemma some_mono : forall A (f g : A -> Prop) l, (forall x, In x l -> f x -> g x) -> some f l -> some g l.
Proof. induction l as [|x l IH]; cbn; intros H; [auto|]. intros [A1|A2]; [left; apply H; auto|right; apply IH; auto]. Qed.
Lemma member_mono : forall A (f g : string -> A -> Prop) l, (forall k x, In (k, x) l -> f k x -> g k x) -> everyMember f l -> everyMember g l.
Proof. induction l as [|[k x] l IH]; cbn; intros H; [auto|]. intros [A1 A2]. split; [apply H; auto|apply IH; auto]. Qed.
Lemma positions_mono : forall A (f g : A -> json -> Prop) l vs, (forall x v, In x l -> f x v -> g x v) -> positions f l vs -> positions g l vs.
Proof. induction l as [|x l IH]; intros [|v vs]; cbn; intros H; auto. intros [A1 A2]. split; [apply H; auto|apply IH; auto]. Qed.
Lemma present_mono : forall A (f g : A -> Prop) o, (forall x, o = Some x -> f x -> g x) -> present f o -> present g o.
Proof. intros A f g [x|]; cbn; auto. Qed.
Lemma atLeast_mono : forall (f g : json -> Prop) k l, (forall x, f x -> g x) -> atLeast f k l -> atLeast g k l.
Proof. intros f g k l H A. induction A; [apply al_done; auto|apply al_take; auto|apply al_skip; auto]. Qed.

Lemma valid_mono : forall mt fm (R R' : string -> json -> Prop), (forall r v, R r v -> R' r v) ->
  forall n, positive n -> forall v, valid mt fm R n v -> valid mt fm R' n v.
Proof.
  intros mt fm R R' HR n. induction n as [n IH] using node_ind'. intros HP v V.
  assert (K : forall c, In c (subnodes n) -> forall x, valid mt fm R c x -> valid mt fm R' c x).
  { intros c Hc x. apply IH; auto. intros m Hm. apply HP. eapply within_step; eauto. }
  destruct (HP n (within_refl n)) as (P1 & P2 & P3 & P4).
  apply valid_eq in V. apply valid_eq. destruct V as (V1 & V2 & V3 & V4 & V5 & V6 & V7 & V8 & V9).
  rewrite P1, P2, P3. split; [exact V1|]. split; [|split; [|split; [|split; [|split; [exact Logic.I|split; [exact Logic.I|split; [exact Logic.I|]]]]]]].
  - intros m ->. destruct (V2 m eq_refl) as (A & B & C). split; [|split].
    + revert A. apply present_mono. intros l El. apply member_mono. intros k c Hc F x Hx. apply K; auto.
      apply sub_sProperties. rewrite El. apply in_map_iff. exists (k, c). auto.
    + revert B. apply present_mono. intros l El. apply member_mono. intros p c Hc F k x Hx M. apply K; [|eapply F; eauto].
      apply sub_sPatternProperties. rewrite El. apply in_map_iff. exists (p, c). auto.
    + revert C. apply present_mono. intros d Ed F k x H1 H2 H3. destruct (F k x H1 H2 H3) as [G1 G2]. split; [exact G1|].
      revert G2. apply present_mono. intros c Ec. apply K. apply sub_sAdditionalProperties. rewrite Ed. cbn. rewrite Ec. cbn. auto.
  - intros l ->. destruct (V3 l eq_refl) as (A & B & C & D). split; [|split; [|split]].
    + revert A. apply present_mono. intros ns E. apply positions_mono. intros c x Hc. apply K. apply sub_sPrefixItems. rewrite E. exact Hc.
    + revert B. apply present_mono. intros d E (B1 & B2 & B3). split; [|split; [exact B2|]].
      * intros Ep. specialize (B1 Ep). revert B1. apply present_mono. intros ns En. apply positions_mono. intros c x Hc. apply K. apply sub_sItems. rewrite E. cbn. rewrite En. apply in_or_app. right. exact Hc.
      * revert B3. apply present_mono. intros c Ec F x Hx. apply K; [|auto]. apply sub_sItems. rewrite E. cbn. rewrite Ec. cbn. auto.
    + revert C. apply present_mono. intros d E F G. destruct (F G) as [F1 F2]. split; [exact F1|]. revert F2. apply present_mono. intros c Ec F2 x Hx. apply K; [|auto].
      apply sub_sAdditionalItems. rewrite E. cbn. rewrite Ec. cbn. auto.
    + revert D. apply present_mono. intros c E (D1 & D2). split; [|intros k X; rewrite P4 in X; discriminate].
      revert D1. apply atLeast_mono. intros x. apply K. apply sub_sContains. rewrite E. cbn. auto.
  - revert V4. apply present_mono. intros l E. apply every_mono. intros c Hc. apply K. apply sub_sAllOf. rewrite E. exact Hc.
  - revert V5. apply present_mono. intros l E. apply some_mono. intros c Hc. apply K. apply sub_sAnyOf. rewrite E. exact Hc.
  - revert V9. apply present_mono. intros r E. apply HR.
Qed.

Lemma reading_exists : forall mt fm root, positive root -> exists rf, reads mt fm root rf.
Proof.
  intros mt fm root HP. pose (con := fun R : string -> json -> Prop => forall r v, R r v -> exists t, names root r t /\ valid mt fm R t v).
  assert (PT : forall r t, names root r t -> positive t).
  { intros r t N m Hm. apply HP. destruct N as [|kwd k c I1 _ Hd]; auto. eapply within_step; [|exact Hm]. destruct I1 as [<-|[<-|[]]]; cbn in Hd.
    - apply sub_sDefs. unfold omaps. destruct (sDefs root); [|discriminate]. apply assoc_In in Hd. apply in_map_iff. exists (k, c). auto.
    - apply sub_sDefinitions. unfold omaps. destruct (sDefinitions root); [|discriminate]. apply assoc_In in Hd. apply in_map_iff. exists (k, c). auto. }
  exists (fun r v => exists R, con R /\ R r v).
  assert (F : forall r t v, names root r t -> (exists R, con R /\ R r v) -> valid mt fm (fun r v => exists R, con R /\ R r v) t v).
  { intros r t v N (R & C & H). destruct (C r v H) as (t' & N' & V). rewrite (names_one _ _ _ _ N N'). revert V. apply valid_mono; eauto. }
  intros r t v N. split; [apply F; auto|]. intros V.
  exists (fun r v => exists t, names root r t /\ valid mt fm (fun r v => exists R, con R /\ R r v) t v). split; [|eauto].
  intros r' v' (t' & N' & V'). exists t'. split; auto. revert V'. apply valid_mono; eauto.
  intros r0 v0 (R & C & H). destruct (C r0 v0 H) as (t0 & N0 & _). exists t0. split; [exact N0|]. eapply F; eauto.
Qed.
