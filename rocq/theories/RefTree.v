(* In a document without combinations, the table of references holds, for every path, the generator made
   from the node at that path: the proofs behind C31. *)
From Coq Require Import ZArith List String Ascii Bool Lia.
From Verif Require Import Base Float64 Json Schema NodeFacts Util Number Options Gen Codec PState PFacts RefPath Merge NotMerge Parse ParseKeep.
From Verif Require Import SpecRef RefProps SpecParse SpecRefs ParseShape.
Import ListNotations.
Open Scope string_scope.
Open Scope Z_scope.

(* ------------------------------------------------------------------ paths *)
Definition under (p q : string) : Prop := q = p \/ exists r, q = p ++ String "/" r.
(* the rest of a path: nothing, or a slash and more *)
Definition rest (r : string) : Prop := r = "" \/ exists t, r = String "/" t.
Lemma under_rest : forall p q, under p q <-> exists r, rest r /\ q = p ++ r.
Proof.
  intros p q. split.
  - intros [->|[r ->]]; [exists ""|exists (String "/" r)]; split; try (symmetry; apply append_nil); auto; [left|right]; eauto.
  - intros (r & [->|[t ->]] & ->); [left; apply append_nil|right; eauto].
Qed.
Lemma under_refl : forall p, under p p. Proof. left. reflexivity. Qed.
Lemma under_trans : forall p q r, under p q -> under q r -> under p r.
Proof.
  intros p q r [->|[x ->]] [->|[y ->]]; unfold under; eauto.
  right. exists (x ++ String "/" y). rewrite append_assoc. reflexivity.
Qed.
Lemma under_slash : forall p r, under p (p ++ String "/" r). Proof. right. eauto. Qed.

Lemma cut : forall x y a b, noSlash x -> noSlash y -> rest a -> rest b -> x ++ a = y ++ b -> x = y /\ a = b.
Proof.
  induction x as [|c x IH]; intros y a b X Y A B H; destruct y as [|e y]; cbn [append] in H.
  - auto.
  - exfalso. subst a. destruct A as [A|[t A]]; [discriminate|]. injection A as -> _. apply Y. cbn. auto.
  - exfalso. subst b. destruct B as [B|[t B]]; [discriminate|]. injection B as -> _. apply X. cbn. auto.
  - injection H as <- H. apply IH in H; auto; [destruct H as [-> ->]; auto|intros I; apply X; cbn; auto|intros I; apply Y; cbn; auto].
Qed.

(* the steps the parser takes *)
Definition taken (s : step) : Prop :=
  match s with
  | Into k => In k ["additionalProperties"; "items"; "contains"; "additionalItems"; "unevaluatedItems"]
  | Named k x => In k ["properties"; "patternProperties"; "definitions"; "$defs"] /\ noSlash x
  | Nth k _ => k = "prefixItems"
  end.
Definition txt (s : step) : string := String "/" (written s).
Definition kw (s : step) : string := match s with Into k | Named k _ | Nth k _ => k end.
Definition more (s : step) : string := match s with Into _ => "" | Named _ x => String "/" x | Nth _ i => String "/" (itoa (Z.of_nat i)) end.
Lemma txt_eq : forall s, txt s = String "/" (kw s ++ more s).
Proof. intros []; cbn; rewrite ?append_nil; reflexivity. Qed.
Lemma taken_kw : forall s, taken s -> noSlash (kw s).
Proof.
  intros s T. apply kw_noSlash. destruct s as [k|k x|k i]; cbn [taken kw] in *; [|destruct T as [T _]|subst k];
    repeat (destruct T as [<-|T]; [cbn; tauto|]); try destruct T. cbn. tauto.
Qed.
Lemma append_inj : forall p a b, p ++ a = p ++ b -> a = b.
Proof. induction p; cbn; intros a0 b H; [exact H|]. injection H as H. auto. Qed.
Lemma steps_apart : forall p q s s', taken s -> taken s' -> under (p ++ txt s) q -> under (p ++ txt s') q -> s = s'.
Proof.
  intros p q s s' T T' U U'. apply under_rest in U, U'. destruct U as (r & R & ->), U' as (r' & R' & H).
  rewrite !append_assoc in H. apply append_inj in H. rewrite !txt_eq in H. cbn [append] in H. injection H as H. rewrite !append_assoc in H.
  assert (M : forall s r, rest r -> rest (more s ++ r)).
  { intros [k|k x|k i] t Ht; cbn [more append]; [exact Ht| |]; right; eauto. }
  apply cut in H; [|apply taken_kw; auto|apply taken_kw; auto|apply M; auto|apply M; auto]. destruct H as [K H].
  destruct s as [k|k x|k i], s' as [k'|k' x'|k' i']; cbn [kw taken more append] in *; subst k'.
  - reflexivity.
  - exfalso. destruct T' as [T' _]. cbn in T, T'. intuition congruence.
  - exfalso. cbn in T. subst k. cbn in T. intuition congruence.
  - exfalso. destruct T as [T _]. cbn in T, T'. intuition congruence.
  - destruct T as [_ T], T' as [_ T']. injection H as H. apply cut in H; auto. destruct H as [-> _]. reflexivity.
  - exfalso. destruct T as [T _]. subst k. cbn in T. intuition congruence.
  - exfalso. subst k. cbn in T'. intuition congruence.
  - exfalso. destruct T' as [T' _]. subst k. cbn in T'. intuition congruence.
  - injection H as H. apply cut in H; auto using noSlash_itoa. destruct H as [H _]. apply itoa_inj in H. apply Nat2Z.inj in H. subst. reflexivity.
Qed.
Lemma pointer_cons : forall s p, pointer (s :: p) = txt s ++ pointer p.
Proof. reflexivity. Qed.

(* ------------------------------------------------------------------ the table *)
Section Tree.
Variable E : penv.
Variable doc rz : string.
Hypothesis Hrz : rz = "" \/ rz = doc.
Notation R s q := (target (pRefs s) doc q).

(* between s and s' only entries under these steps of the current path change *)
Record touch (T : step -> Prop) (s s' : pst) : Prop := mkTouch {
  tPath : pPath s' = pPath s;
  tParsing : pParsing s' = pParsing s;
  tResolving : pResolving s' = pResolving s;
  tDepth : pDepth s' = pDepth s;
  tRefs : forall q, (forall st, T st -> ~ under (pPath s ++ txt st) q) -> R s' q = R s q;
  tErrs : incl (pErrs s) (pErrs s') }.
Local Hint Resolve incl_refl : core.
Lemma touch_refl : forall T s, touch T s s. Proof. intros. constructor; auto. Qed.
Lemma touch_trans : forall T1 T2 a b c, touch T1 a b -> touch T2 b c -> touch (fun st => T1 st \/ T2 st) a c.
Proof.
  intros T1 T2 a b c [] []. constructor; try congruence. 2:{ eapply incl_tran; eauto. } intros q H. rewrite tRefs1; [apply tRefs0|]; intros st HT.
  - apply H. auto.
  - rewrite tPath0. apply H. auto.
Qed.
Lemma touch_weak : forall (T T' : step -> Prop) a b, touch T a b -> (forall st, T st -> T' st) -> touch T' a b.
Proof. intros T T' a b [] H. constructor; auto. Qed.
Definition none (st : step) : Prop := False.

(* every part of the generator g is what the table holds for the path of the part, and was made from the
   node there *)
Definition whole (n : schemaNode) (s : pst) (q : string) (g : gen) : Prop :=
  forall p h, partAt g p h -> R s (q ++ pointer p) = Some h /\ exists m, addressed n p = Some m /\ madeFrom E (pErrs s) (pDepth s + Z.of_nat (List.length p)) m doc (q ++ pointer p) h.

Lemma made_more : forall n p e e' k k' q h, incl e e' -> k = k' -> (exists m, addressed n p = Some m /\ madeFrom E e k m doc q h) ->
  exists m, addressed n p = Some m /\ madeFrom E e' k' m doc q h.
Proof.
  intros n p e e' k k' q h I <- (m & A & fu & s & r & s' & B1 & B2 & B3 & B4 & B5 & B6 & B7 & B8 & B9). exists m. split; [exact A|]. exists fu, s, r, s'.
  repeat (split; [assumption|]). eapply incl_tran; eauto.
Qed.
Lemma pointer_under : forall q p, under q (q ++ pointer p).
Proof. intros q [|st p]; [left; cbn; apply append_nil|right; eexists; reflexivity]. Qed.
Lemma whole_touch : forall n T s s' st g, touch T s s' -> (forall st', T st' -> taken st') -> taken st -> ~ T st ->
  whole n s (pPath s ++ txt st) g -> whole n s' (pPath s ++ txt st) g.
Proof.
  intros n T s s' st g H HT Hst N W p h P. destruct (W p h P) as [A B]. split; [|refine (made_more _ _ _ _ _ _ _ _ (tErrs _ _ _ H) _ B); rewrite (tDepth _ _ _ H); reflexivity].
  rewrite (tRefs _ _ _ H); [exact A|]. intros st' Hs U.
  assert (st' = st) by (eapply steps_apart; [apply HT; exact Hs|exact Hst|exact U|apply pointer_under]). subst. contradiction.
Qed.

Definition typeSteps (t : string) (st : step) : Prop :=
  taken st /\ (if String.eqb t "object" then In (kw st) ["properties"; "patternProperties"; "additionalProperties"]
               else if String.eqb t "array" then In (kw st) ["prefixItems"; "items"; "contains"; "additionalItems"; "unevaluatedItems"]
               else False).
Definition someSteps (st : step) : Prop := exists t, typeSteps t st.
(* what parsing a node does *)
Definition claim (d : nat) (n : schemaNode) : Prop := forall fuel s r s', parseNode E fuel n s = Ok (r, s') ->
  pParsing s = doc -> pResolving s = rz -> pDepth s + Z.of_nat d <= pxMaxDepth E ->
  pPath s' = pPath s /\ pParsing s' = pParsing s /\ pResolving s' = pResolving s /\ pDepth s' = pDepth s /\
  (forall q, q <> pPath s -> (forall st, someSteps st -> ~ under (pPath s ++ txt st) q) -> R s' q = R s q) /\ whole n s' (pPath s) (orNull r) /\ incl (pErrs s) (pErrs s').

Lemma sources_touch : forall T sc l s k s', pushSources E sc l s = Ok (k, s') -> touch T s s'.
Proof.
  induction l as [|n l IH]; intros s k s' H; cbn [pushSources] in H.
  - apply pret_ok in H. destruct H as [_ ->]. apply touch_refl.
  - destruct (sRef n) as [ref|]; [|eauto]. apply pbind_ok in H. destruct H as (a & s0 & H0 & H). apply pget_ok in H0. destruct H0 as [-> ->].
    destruct (resolveRef E s ref) as [[d p]|e].
    + apply pbind_ok in H. destruct H as (u & s1 & H1 & H). apply pmod_ok in H1. subst s1.
      apply pbind_ok in H. destruct H as (k1 & s2 & H2 & H). apply pret_ok in H. destruct H as [_ ->]. apply IH in H2. destruct H2. constructor; auto.
    + apply pbind_ok in H. destruct H as (u & s1 & H1 & H). apply pmod_ok in H1. subst s1. apply IH in H. destruct H. constructor; auto.
      eapply incl_tran; [|exact tErrs0]. cbn. apply incl_tl, incl_refl.
Qed.
Lemma pops_touch : forall T k s u s', popMany k s = Ok (u, s') -> touch T s s'.
Proof.
  induction k as [|k IH]; intros s u s' H; cbn [popMany] in H; [apply pret_ok in H; destruct H as [_ ->]; apply touch_refl|].
  apply pbind_ok in H. destruct H as (u1 & s1 & H1 & H). apply pmod_ok in H1. subst s1. apply IH in H. destruct H. constructor; auto.
Qed.
Lemma scope_sources : forall d f st n l s r s', claim d n -> inScope E (parseF E f false) (txt st) n l s = Ok (r, s') ->
  pParsing s = doc -> pResolving s = rz -> pDepth s + Z.of_nat d <= pxMaxDepth E ->
  touch (eq st) s s' /\ whole n s' (pPath s ++ txt st) (orNull r).
Proof.
  intros d f st n l s r s' C H HP HR HD. unfold inScope in H.
  apply pbind_ok in H. destruct H as (u & s0 & H0 & H). apply pmod_ok in H0. subst s0.
  apply pbind_ok in H. destruct H as (k & s1 & H1 & H). apply (sources_touch none) in H1. destruct H1 as [X1 X2 X3 X4 X5 X6].
  apply pbind_ok in H. destruct H as (r0 & s2 & H2 & H).
  apply pbind_ok in H. destruct H as (u3 & s3 & H3 & H). apply (pops_touch none) in H3. destruct H3 as [Y1 Y2 Y3 Y4 Y5 Y6].
  apply pbind_ok in H. destruct H as (u4 & s4 & H4 & H). apply pmod_ok in H4. subst s4. apply pret_ok in H. destruct H as [-> ->].
  cbn [pPath pParsing pResolving pDepth withPath pRefs] in *.
  apply (C f) in H2; [|congruence|congruence|lia]. destruct H2 as (P1 & P2 & P3 & P4 & F & W & G). rewrite X1 in P1, F, W.
  split.
  - constructor; cbn [pPath pParsing pResolving pDepth withPath pRefs]; try congruence.
    + rewrite Y1, P1. apply substring_app.
    + intros q Hq. rewrite Y5 by (intros st' []). rewrite F.
      * apply X5. intros st' [].
      * intros ->. apply (Hq st eq_refl), under_refl.
      * intros st' _ U. apply (Hq st eq_refl). eapply under_trans; [|exact U]. apply under_slash.
    + eapply incl_tran; [exact X6|]. eapply incl_tran; [exact G|exact Y6].
  - intros p h P. destruct (W p h P) as [A B]. split; [|refine (made_more _ _ _ _ _ _ _ _ Y6 _ B); cbn [pDepth withPath]; lia]. cbn [pRefs withPath]. rewrite Y5 by (intros st' []). exact A.
Qed.
Lemma scope_tree : forall d f st n s r s', claim d n -> inScope E (parseF E f false) (txt st) n [] s = Ok (r, s') ->
  pParsing s = doc -> pResolving s = rz -> pDepth s + Z.of_nat d <= pxMaxDepth E ->
  touch (eq st) s s' /\ whole n s' (pPath s ++ txt st) (orNull r).
Proof. intros. eapply scope_sources; eauto. Qed.

Definition names (kwd : string) (ks : list string) (st : step) : Prop := exists k, In k ks /\ st = Named kwd k.
Lemma names_cons : forall kwd k ks st, k = k -> Named kwd k = st \/ names kwd ks st -> names kwd (k :: ks) st.
Proof. intros kwd k ks st _ [<-|(x & I & ->)]; eexists; (split; [|reflexivity]); [left; reflexivity|right; exact I]. Qed.

Lemma props_tree : forall d f l s gs s', parseProps E (parseF E f false) l s = Ok (gs, s') ->
  pParsing s = doc -> pResolving s = rz -> pDepth s + Z.of_nat d <= pxMaxDepth E ->
  NoDup (map fst l) -> (forall k, In k (map fst l) -> noSlash k) -> (forall k c, In (k, c) l -> claim d c) ->
  touch (names "properties" (map fst l)) s s' /\
  (forall k g, In (k, g) gs -> exists c, In (k, c) l /\ whole c s' (pPath s ++ txt (Named "properties" k)) g).
Proof.
  induction l as [|[k n] l IH]; intros s gs s' H HP HR HD ND NS HC; cbn [parseProps] in H.
  - apply pret_ok in H. destruct H as [-> ->]. split; [apply touch_refl|]. intros k g [].
  - apply pbind_ok in H. destruct H as (g & s0 & H0 & H). apply pbind_ok in H. destruct H as (gs0 & s1 & H1 & H).
    apply pret_ok in H. destruct H as [-> ->]. cbn [map fst] in *. apply NoDup_cons_iff in ND; destruct ND as [NI ND'].
    change ("/properties/" ++ k) with (txt (Named "properties" k)) in H0.
    apply (scope_tree d) in H0; auto; [|eapply HC; left; reflexivity]. destruct H0 as [T0 W0].
    pose proof T0 as [A1 A2 A3 A4 A5].
    apply IH in H1; [|congruence|congruence|lia|assumption|intros; apply NS; right; assumption|intros; eapply HC; right; eassumption].
    destruct H1 as [T1 W1].
    split.
    + eapply touch_weak; [eapply touch_trans; [exact T0|exact T1]|]. intros st X. apply names_cons; auto.
    + rewrite A1 in W1. intros k' g' [X|X].
      * injection X as <- <-. exists n. split; [left; reflexivity|]. rewrite <- A1. eapply whole_touch; [exact T1| | | |rewrite A1; exact W0].
        -- intros st (k' & I & ->). cbn. split; [tauto|apply NS; right; exact I].
        -- cbn. split; [tauto|apply NS; left; reflexivity].
        -- intros (k' & I & X). injection X as ->. contradiction.
      * destruct (W1 _ _ X) as (c & I & W). exists c. split; [right; exact I|exact W].
Qed.
Lemma err_touch : forall T sub tag s u s', addErrSub sub tag s = Ok (u, s') -> touch T s s'.
Proof. intros T sub tag s u s' H. apply pmod_ok in H. subst s'. constructor; auto. cbn. apply incl_tl, incl_refl. Qed.
Lemma patterns_tree : forall d f l s gs s', parsePatterns E (parseF E f false) l s = Ok (gs, s') ->
  pParsing s = doc -> pResolving s = rz -> pDepth s + Z.of_nat d <= pxMaxDepth E ->
  NoDup (map fst l) -> (forall k, In k (map fst l) -> noSlash k) -> (forall k c, In (k, c) l -> claim d c) ->
  touch (names "patternProperties" (map fst l)) s s' /\
  (forall k b g, In (k, (b, g)) gs -> exists c, In (k, c) l /\ whole c s' (pPath s ++ txt (Named "patternProperties" k)) g).
Proof.
  induction l as [|[k n] l IH]; intros s gs s' H HP HR HD ND NS HC; cbn [parsePatterns] in H.
  - apply pret_ok in H. destruct H as [-> ->]. split; [apply touch_refl|]. intros k b g [].
  - apply pbind_ok in H. destruct H as (g & s0 & H0 & H). cbv zeta in H. apply pbind_ok in H. destruct H as (u & s0' & Hu & H).
    apply pbind_ok in H. destruct H as (gs0 & s1 & H1 & H).
    apply pret_ok in H. destruct H as [-> ->]. cbn [map fst] in *. apply NoDup_cons_iff in ND; destruct ND as [NI ND'].
    change ("/patternProperties/" ++ k) with (txt (Named "patternProperties" k)) in H0.
    apply (scope_tree d) in H0; auto; [|eapply HC; left; reflexivity]. destruct H0 as [T0 W0].
    pose proof T0 as [A1 A2 A3 A4 A5].
    assert (Tu : touch none s0 s0') by (destruct (pxPropRegexOk E k); [apply pret_ok in Hu; destruct Hu as [_ ->]; apply touch_refl|eapply err_touch; eauto]).
    pose proof Tu as [B1 B2 B3 B4 B5].
    apply IH in H1; [|congruence|congruence|lia|assumption|intros; apply NS; right; assumption|intros; eapply HC; right; eassumption].
    destruct H1 as [T1 W1].
    pose proof (touch_trans _ _ _ _ _ Tu T1) as T2.
    split.
    + eapply touch_weak; [eapply touch_trans; [exact T0|exact T2]|]. intros st [X|[[]|X]]; apply names_cons; auto.
    + rewrite B1, A1 in W1. intros k' b' g' [X|X].
      * injection X as <- <- <-. exists n. split; [left; reflexivity|]. rewrite <- A1. eapply whole_touch; [exact T2| | | |rewrite A1; exact W0].
        -- intros st [[]|(k' & I & ->)]. cbn. split; [tauto|apply NS; right; exact I].
        -- cbn. split; [tauto|apply NS; left; reflexivity].
        -- intros [[]|(k' & I & X)]. injection X as ->. contradiction.
      * destruct (W1 _ _ _ X) as (c & I & W). exists c. split; [right; exact I|exact W].
Qed.
Lemma opt_tree : forall d f st o s r s', optScope E (parseF E f false) (txt st) o s = Ok (r, s') ->
  pParsing s = doc -> pResolving s = rz -> pDepth s + Z.of_nat d <= pxMaxDepth E -> (forall c, o = Some c -> claim d c) ->
  touch (eq st) s s' /\ forall g, r = Good (Some g) -> exists c, o = Some c /\ whole c s' (pPath s ++ txt st) g.
Proof.
  intros d f st [n|] s r s' H HP HR HD HC; cbn [optScope] in H.
  - apply pbind_ok in H. destruct H as (x & s0 & H0 & H).
    assert (s' = s0 /\ r = match x with Good g => Good (Some g) | Bad e => Bad e end) by (destruct x; apply pret_ok in H; destruct H; auto). destruct H1 as [-> ->].
    apply (scope_tree d) in H0; auto. destruct H0 as [T W]. split; [exact T|]. intros g Hg. destruct x; [|discriminate]. injection Hg as ->. eauto.
  - apply pret_ok in H. destruct H as [-> ->]. split; [apply touch_refl|]. discriminate.
Qed.
Definition positions (i : nat) (st : step) : Prop := exists j, (i <= j)%nat /\ st = Nth "prefixItems" j.
Lemma tuple_tree : forall d f l i s r s', parseTuple E (parseF E f false) (Z.of_nat i) l s = Ok (r, s') ->
  pParsing s = doc -> pResolving s = rz -> pDepth s + Z.of_nat d <= pxMaxDepth E -> (forall c, In c l -> claim d c) ->
  touch (positions i) s s' /\
  forall gs, r = Good gs -> forall j g, nth_error gs j = Some g -> exists c, nth_error l j = Some c /\ whole c s' (pPath s ++ txt (Nth "prefixItems" (i + j))) g.
Proof.
  induction l as [|n l IH]; intros i s r s' H HP HR HD HC; cbn [parseTuple] in H.
  - apply pret_ok in H. destruct H as [-> ->]. split; [apply touch_refl|]. intros gs X. injection X as <-. intros [|j] g Y; discriminate.
  - apply pbind_ok in H. destruct H as (x & s0 & H0 & H).
    change ("/prefixItems/" ++ itoa (Z.of_nat i)) with (txt (Nth "prefixItems" i)) in H0.
    apply (scope_tree d) in H0; auto; [|apply HC; left; reflexivity]. destruct H0 as [T0 W0]. pose proof T0 as [A1 A2 A3 A4 A5].
    destruct x as [g|e].
    2:{ apply pret_ok in H. destruct H as [-> ->]. split; [|discriminate]. eapply touch_weak; [exact T0|]. intros st <-. exists i. auto. }
    apply pbind_ok in H. destruct H as (gs0 & s1 & H1 & H). replace (Z.of_nat i + 1) with (Z.of_nat (S i)) in H1 by lia.
    assert (s' = s1 /\ r = match gs0 with Good gs => Good (g :: gs) | Bad e => Bad e end) by (destruct gs0; apply pret_ok in H; destruct H; auto). destruct H0 as [-> ->].
    apply IH in H1; [|congruence|congruence|lia|intros; apply HC; right; assumption]. destruct H1 as [T1 W1]. rewrite A1 in W1.
    split.
    + eapply touch_weak; [eapply touch_trans; [exact T0|exact T1]|]. intros st [<-|(j & L & ->)]; eexists; (split; [|reflexivity]); lia.
    + destruct gs0 as [gs|e]; [|discriminate]. intros gs' X. injection X as <-. intros [|j] g' Y.
      * injection Y as ->. exists n. split; [reflexivity|]. rewrite Nat.add_0_r. rewrite <- A1. eapply whole_touch; [exact T1| | | |rewrite A1; exact W0].
        -- intros st (j & _ & ->). reflexivity.
        -- reflexivity.
        -- intros (j & L & X). injection X as ->. lia.
      * cbn [nth_error] in Y. destruct (W1 gs eq_refl j g' Y) as (c & Hc & W). exists c. split; [exact Hc|]. replace (i + S j)%nat with (S i + j)%nat by lia. exact W.
Qed.

(* ------------------------------------------------------------------ objects and arrays *)
Lemma typeSteps_apart : forall t t' st, typeSteps t st -> typeSteps t' st -> t = t'.
Proof.
  unfold typeSteps. intros t t' st [_ A] [_ B].
  destruct (String.eqb_spec t "object"); [|destruct (String.eqb_spec t "array"); [|destruct A]];
  (destruct (String.eqb_spec t' "object"); [|destruct (String.eqb_spec t' "array"); [|destruct B]]); try congruence; exfalso;
  cbn [In] in A, B; intuition congruence.
Qed.
(* the parts of a generator, all in the table *)
Definition parts (T : step -> Prop) (n : schemaNode) (s : pst) (q : string) (g : gen) : Prop :=
  forall st c, part st g c -> T st /\ exists m, down n st = Some m /\ whole m s (q ++ txt st) c.
Lemma parts_touch : forall T T' n s s' g, parts T n s (pPath s) g -> touch T' s s' -> (forall st, T st -> taken st) -> (forall st, T' st -> taken st) ->
  (forall st, T st -> T' st -> False) -> parts T n s' (pPath s') g.
Proof.
  intros T T' n s s' g H U A B D st c P. destruct (H st c P) as (HT & m & Hm & W). split; [exact HT|]. exists m. split; [exact Hm|].
  rewrite (tPath _ _ _ U). eapply whole_touch; eauto.
Qed.
Lemma parts_none : forall T n s q g, (forall st c, ~ part st g c) -> parts T n s q g.
Proof. intros T n s q g H st c P. destruct (H st c P). Qed.

Section OneNode.
Variable d f : nat.
Variable n : schemaNode.
Hypothesis Hprops : clearNames (sProperties n).
Hypothesis Hpats : clearNames (sPatternProperties n).
Hypothesis Hitems : forall it, sItems n = Some it -> get_or (itNodes it) [] = [] /\ (sContains n <> None -> itNode it = None).
Hypothesis Hadd : forall a, sAdditionalItems n = Some a -> nofFalse a = true -> nofSchema a = None.
Hypothesis Hkids : forall st c, down n st = Some c -> claim d c.

Lemma In_assoc' : forall A (l : list (string * A)) k v, NoDup (map fst l) -> In (k, v) l -> assoc k l = Some v.
Proof. intros. apply In_assoc; auto. Qed.
Lemma kid_prop : forall k c, In (k, c) (get_or (sProperties n) []) -> down n (Named "properties" k) = Some c.
Proof. intros k c I. destruct Hprops as [ND _]. cbn. destruct (sProperties n) as [l|]; [|destruct I]. apply In_assoc'; auto. Qed.
Lemma kid_pat : forall k c, In (k, c) (get_or (sPatternProperties n) []) -> down n (Named "patternProperties" k) = Some c.
Proof. intros k c I. destruct Hpats as [ND _]. cbn. destruct (sPatternProperties n) as [l|]; [|destruct I]. apply In_assoc'; auto. Qed.

Lemma object_tree : forall s r s', parseObject E (parseF E f false) n s = Ok (r, s') ->
  pParsing s = doc -> pResolving s = rz -> pDepth s + Z.of_nat d <= pxMaxDepth E ->
  touch (typeSteps "object") s s' /\ parts (typeSteps "object") n s' (pPath s) (orNull r).
Proof.
  intros s r s' H HP HR HD. unfold parseObject in H.
  assert (B : forall t (x : err gen) z, bad t s = Ok (x, z) -> touch (typeSteps "object") s z /\ parts (typeSteps "object") n z (pPath s) (orNull x)).
  { intros t x z Hz. unfold bad in Hz. apply pret_ok in Hz. destruct Hz as [-> ->]. split; [apply touch_refl|]. apply parts_none. intros st c Q. inversion Q. }
  repeat match type of H with (if ?b then bad _ else _) _ = _ => destruct b; [apply B in H; exact H|] end. clear B.
  apply pbind_ok in H. destruct H as (pats & s0 & H0 & H).
  apply pbind_ok in H. destruct H as (ps & s1 & H1 & H).
  apply pbind_ok in H. destruct H as (add & s2 & H2 & H).
  unfold good in H. apply pret_ok in H. destruct H as [-> ->].
  apply (patterns_tree d) in H0; auto; [|apply Hpats|apply Hpats|intros k c I; eapply Hkids; apply kid_pat; exact I]. destruct H0 as [T0 W0].
  pose proof T0 as [A1 A2 A3 A4 _].
  apply (props_tree d) in H1; [|congruence|congruence|lia|apply Hprops|apply Hprops|intros k c I; eapply Hkids; apply kid_prop; exact I]. destruct H1 as [T1 W1].
  pose proof T1 as [B1 B2 B3 B4 _].
  assert (H2' : touch (eq (Into "additionalProperties")) s1 s2 /\ forall g, add = Some g -> exists c, down n (Into "additionalProperties") = Some c /\ whole c s2 (pPath s1 ++ txt (Into "additionalProperties")) g).
  { change (down n (Into "additionalProperties")) with (orFalse (sAdditionalProperties n)).
    assert (Q : (if nofFalse (get_or (sAdditionalProperties n) (mkNOF None false)) then None else nofSchema (get_or (sAdditionalProperties n) (mkNOF None false))) = orFalse (sAdditionalProperties n))
      by (destruct (sAdditionalProperties n); reflexivity). rewrite Q in H2.
    destruct (orFalse (sAdditionalProperties n)) as [sub|] eqn:Es.
    - apply pbind_ok in H2. destruct H2 as (x & s3 & H3 & H2). apply pret_ok in H2. destruct H2 as [-> ->].
      change "/additionalProperties" with (txt (Into "additionalProperties")) in H3.
      apply (scope_tree d) in H3; [|apply (Hkids (Into "additionalProperties")); exact Es|congruence|congruence|lia]. destruct H3 as [T3 W3]. split; [exact T3|]. intros g X. injection X as <-. eauto.
    - apply pret_ok in H2. destruct H2 as [-> ->]. split; [apply touch_refl|]. discriminate. }
  destruct H2' as [T2 W2]. clear H2.
  assert (K0 : forall st, names "patternProperties" (map fst (get_or (sPatternProperties n) [])) st -> typeSteps "object" st).
  { intros st (k & I & ->). split; [split; [cbn; tauto|apply Hpats; exact I]|]. cbn. tauto. }
  assert (K1 : forall st, names "properties" (map fst (get_or (sProperties n) [])) st -> typeSteps "object" st).
  { intros st (k & I & ->). split; [split; [cbn; tauto|apply Hprops; exact I]|]. cbn. tauto. }
  assert (K2 : forall st, Into "additionalProperties" = st -> typeSteps "object" st).
  { intros st <-. split; cbn; tauto. }
  split.
  - eapply touch_weak; [eapply touch_trans; [exact T0|eapply touch_trans; [exact T1|exact T2]]|]. intros st [X|[X|X]]; auto.
  - cbn [orNull]. intros st c Q. inversion Q; subst.
    + match goal with I : In (k, c) ps |- _ => pose proof I as Ik; apply W1 in I; destruct I as (m & Im & W) end.
      assert (Ik' : In k (map fst (get_or (sProperties n) []))) by (apply in_map_iff; exists (k, m); auto).
      split; [apply K1; exists k; auto|]. exists m. split; [apply kid_prop; exact Im|]. rewrite A1 in W. rewrite <- A1, <- B1.
      eapply whole_touch; [exact T2|intros st <-; cbn; tauto|split; [cbn; tauto|apply Hprops; exact Ik']|discriminate|rewrite B1, A1; exact W].
    + match goal with I : In (k, (b, c)) pats |- _ => pose proof I as Ik; apply W0 in I; destruct I as (m & Im & W) end.
      assert (Ik' : In k (map fst (get_or (sPatternProperties n) []))) by (apply in_map_iff; exists (k, m); auto).
      split; [apply K0; exists k; auto|]. exists m. split; [apply kid_pat; exact Im|]. rewrite <- A1.
      eapply whole_touch; [eapply touch_trans; [exact T1|exact T2]|intros st [X|X]; [apply K1, X|apply K2, X]|split; [cbn; tauto|apply Hpats; exact Ik']|intros [(k' & _ & X)|X]; discriminate|rewrite A1; exact W].
    + destruct (W2 c eq_refl) as (m & Hm & W). split; [apply K2; reflexivity|]. exists m. split; [exact Hm|]. rewrite B1, A1 in W. exact W.
Qed.

Lemma opt_down : forall st o s r s', optScope E (parseF E f false) (txt st) o s = Ok (r, s') ->
  pParsing s = doc -> pResolving s = rz -> pDepth s + Z.of_nat d <= pxMaxDepth E -> (forall c, o = Some c -> down n st = Some c) ->
  touch (eq st) s s' /\ forall g, r = Good (Some g) -> exists c, down n st = Some c /\ whole c s' (pPath s ++ txt st) g.
Proof.
  intros st o s r s' H HP HR HD HC. apply (opt_tree d) in H; auto; [|intros c X; eapply Hkids; eauto].
  destruct H as [T W]. split; [exact T|]. intros g X. destruct (W g X) as (c & Ec & Wc). eauto.
Qed.
Lemma array_tree : forall s r s', parseArray E (parseF E f false) (merge E f) n s = Ok (r, s') ->
  pParsing s = doc -> pResolving s = rz -> pDepth s + Z.of_nat d <= pxMaxDepth E ->
  touch (typeSteps "array") s s' /\ parts (typeSteps "array") n s' (pPath s) (orNull r).
Proof.
  intros s r s' H HP HR HD. unfold parseArray in H.
  assert (B : forall t z (x : err gen) z', touch (typeSteps "array") s z -> bad t z = Ok (x, z') -> touch (typeSteps "array") s z' /\ parts (typeSteps "array") n z' (pPath s) (orNull x)).
  { intros t z x z' T Hz. unfold bad in Hz. apply pret_ok in Hz. destruct Hz as [-> ->]. split; [exact T|]. apply parts_none. intros st c Q. inversion Q. }
  repeat match type of H with (if ?b then bad _ else _) _ = _ => destruct b; [apply B in H; [exact H|apply touch_refl]|] end.
  assert (K : forall k, In k ["items"; "contains"; "additionalItems"; "unevaluatedItems"] -> taken (Into k) /\ typeSteps "array" (Into k)).
  { intros k I. cbn [In] in I. unfold typeSteps. cbn. intuition. }
  assert (Kp : forall st, positions 0 st -> taken st /\ typeSteps "array" st).
  { intros st (j & _ & ->). unfold typeSteps. cbn. intuition. }
  (* items *)
  apply pbind_ok in H. destruct H as (it & s1 & H1 & H). change "/items" with (txt (Into "items")) in H1.
  apply opt_down in H1; auto.
  2:{ intros c X. cbn. destruct (sItems n) as [i|]; [|discriminate]. destruct (itDisallow i); [discriminate|exact X]. }
  destruct H1 as [T1 W1]. pose proof T1 as [A1 A2 A3 A4 _].
  assert (TT1 : touch (typeSteps "array") s s1) by (eapply touch_weak; [exact T1|intros st <-; apply (K "items"); cbn; tauto]).
  destruct it as [it|e]; [|eapply B; eauto].
  (* additionalItems *)
  apply pbind_ok in H. destruct H as (ad & s2 & H2 & H). change "/additionalItems" with (txt (Into "additionalItems")) in H2.
  apply opt_down in H2; [|congruence|congruence|lia|].
  2:{ intros c X. cbn. unfold orFalse. destruct (sAdditionalItems n) as [i|]; [|discriminate]. destruct (nofFalse i) eqn:F; [|exact X]. rewrite (Hadd i eq_refl F) in X. discriminate. }
  destruct H2 as [T2 W2]. pose proof T2 as [B1 B2 B3 B4 _].
  assert (TT2 : touch (typeSteps "array") s s2).
  { eapply touch_weak; [eapply touch_trans; [exact TT1|exact T2]|]. intros st [X|<-]; [exact X|]. apply (K "additionalItems"); cbn; tauto. }
  destruct ad as [ad|e]; [|eapply B; eauto].
  (* contains *)
  apply pbind_ok in H. destruct H as (ct & s3 & H3 & H).
  assert (H3' : touch (eq (Into "contains")) s2 s3 /\ forall g, ct = Good (Some g) -> exists c, down n (Into "contains") = Some c /\ whole c s3 (pPath s2 ++ txt (Into "contains")) g).
  { unfold parseContains in H3. destruct (sContains n) as [c|] eqn:Ec.
    2:{ unfold good in H3. apply pret_ok in H3. destruct H3 as [-> ->]. split; [apply touch_refl|]. discriminate. }
    apply pbind_ok in H3. destruct H3 as (c' & s2' & H3' & H3).
    assert (X : c' = c /\ s2' = s2).
    { destruct (sItems n) as [i|]; [|apply pret_ok in H3'; tauto]. destruct (Hitems i eq_refl) as [_ Z0]. rewrite Z0 in H3' by discriminate. apply pret_ok in H3'. tauto. }
    destruct X as [-> ->]. change "/contains" with (txt (Into "contains")) in H3. apply opt_down in H3; [exact H3|congruence|congruence|lia|].
    intros c0 X. injection X as <-. exact Ec. }
  clear H3. destruct H3' as [T3 W3]. pose proof T3 as [C1 C2 C3 C4 _].
  assert (TT3 : touch (typeSteps "array") s s3).
  { eapply touch_weak; [eapply touch_trans; [exact TT2|exact T3]|]. intros st [X|<-]; [exact X|]. apply (K "contains"); cbn; tauto. }
  destruct ct as [ct|e]; [|eapply B; eauto].
  (* prefixItems *)
  assert (HT : forall j c, nth_error (tupleNodes n) j = Some c -> down n (Nth "prefixItems" j) = Some c).
  { intros j c X. cbn. unfold tupleNodes in X. destruct (sPrefixItems n) as [[|x l]|]; [| exact X |];
      exfalso; (destruct (sItems n) as [i|]; [rewrite (proj1 (Hitems i eq_refl)) in X|]); destruct j; discriminate. }
  apply pbind_ok in H. destruct H as (tu & s4 & H4 & H).
  apply (tuple_tree d f _ 0) in H4; [|congruence|congruence|lia|].
  2:{ intros c I. apply In_nth_error in I. destruct I as [j I]. eapply Hkids. apply HT. exact I. }
  destruct H4 as [T4 W4]. pose proof T4 as [D1 D2 D3 D4 _].
  assert (TT4 : touch (typeSteps "array") s s4).
  { eapply touch_weak; [eapply touch_trans; [exact TT3|exact T4]|]. intros st [X|X]; [exact X|]. apply Kp, X. }
  destruct tu as [tu|e]; [|eapply B; eauto].
  (* unevaluatedItems *)
  apply pbind_ok in H. destruct H as (un & s5 & H5 & H). change "/unevaluatedItems" with (txt (Into "unevaluatedItems")) in H5.
  apply opt_down in H5; [|congruence|congruence|lia|].
  2:{ intros c X. exact X. }
  destruct H5 as [T5 W5]. pose proof T5 as [E1 E2 E3 E4 _].
  assert (TT5 : touch (typeSteps "array") s s5).
  { eapply touch_weak; [eapply touch_trans; [exact TT4|exact T5]|]. intros st [X|<-]; [exact X|]. apply (K "unevaluatedItems"); cbn; tauto. }
  destruct un as [un|e]; [|eapply B; eauto].
  unfold good in H. apply pret_ok in H. destruct H as [-> ->]. split; [exact TT5|]. cbn [orNull].
  intros st c Q. inversion Q; subst.
  - split; [apply Kp; exists i; split; [lia|reflexivity]|].
    match goal with I : nth_error tu i = Some c |- _ => destruct (W4 tu eq_refl i c I) as (m & Em & W) end.
    exists m. split; [apply HT; exact Em|]. cbn [Nat.add] in W. rewrite C1, B1, A1 in W. rewrite <- A1, <- B1, <- C1, <- D1.
    eapply whole_touch; [exact T5|intros st <-; apply (K "unevaluatedItems"); cbn; tauto|reflexivity|discriminate|].
    rewrite D1, C1, B1, A1. exact W.
  - split; [apply (K "items"); cbn; tauto|]. destruct (W1 c eq_refl) as (m & Em & W). exists m. split; [exact Em|]. rewrite <- A1.
    eapply whole_touch; [eapply touch_trans; [exact T2|eapply touch_trans; [exact T3|eapply touch_trans; [exact T4|exact T5]]]| | | |rewrite A1; exact W].
    + intros st [<-|[<-|[X|<-]]]; [apply (K "additionalItems")|apply (K "contains")|apply Kp, X|apply (K "unevaluatedItems")]; cbn; tauto.
    + apply (K "items"); cbn; tauto.
    + intros [X|[X|[(j & _ & X)|X]]]; discriminate.
  - split; [apply (K "additionalItems"); cbn; tauto|]. destruct (W2 c eq_refl) as (m & Em & W). exists m. split; [exact Em|]. rewrite A1 in W. rewrite <- A1, <- B1.
    eapply whole_touch; [eapply touch_trans; [exact T3|eapply touch_trans; [exact T4|exact T5]]| | | |rewrite B1, A1; exact W].
    + intros st [<-|[X|<-]]; [apply (K "contains")|apply Kp, X|apply (K "unevaluatedItems")]; cbn; tauto.
    + apply (K "additionalItems"); cbn; tauto.
    + intros [X|[(j & _ & X)|X]]; discriminate.
  - split; [apply (K "contains"); cbn; tauto|]. destruct (W3 c eq_refl) as (m & Em & W). exists m. split; [exact Em|]. rewrite B1, A1 in W. rewrite <- A1, <- B1, <- C1.
    eapply whole_touch; [eapply touch_trans; [exact T4|exact T5]| | | |rewrite C1, B1, A1; exact W].
    + intros st [X|<-]; [apply Kp, X|apply (K "unevaluatedItems")]; cbn; tauto.
    + apply (K "contains"); cbn; tauto.
    + intros [(j & _ & X)|X]; discriminate.
  - split; [apply (K "unevaluatedItems"); cbn; tauto|]. destruct (W5 c eq_refl) as (m & Em & W). exists m. split; [exact Em|]. rewrite D1, C1, B1, A1 in W. exact W.
Qed.

(* ------------------------------------------------------------------ types *)
Definition leaf (g : gen) : Prop := forall st c, ~ part st g c.
Lemma typed_tree : forall t s r s', parseType E (parseF E f false) (merge E f) t n s = Ok (r, s') ->
  pParsing s = doc -> pResolving s = rz -> pDepth s + Z.of_nat d <= pxMaxDepth E ->
  touch (typeSteps t) s s' /\ parts (typeSteps t) n s' (pPath s) (orNull r).
Proof.
  intros t s r s' H HP HR HD. unfold parseType in H.
  destruct (String.eqb_spec t "object"); [subst; apply object_tree; auto|].
  destruct (String.eqb_spec t "array"); [subst; apply array_tree; auto|].
  assert (L : s' = s /\ leaf (orNull r)).
  { assert (G : forall (x r' : err gen), leaf (orNull x) -> pret x s = Ok (r', s') -> s' = s /\ leaf (orNull r')).
    { intros x r' Lx X. apply pret_ok in X. destruct X as [-> ->]. auto. }
    assert (Lb : forall m, leaf (orNull (Bad m))) by (intros m st c Q; inversion Q).
    repeat match type of H with (if ?b then _ else _) _ = _ => destruct b end;
      unfold parseNum, parseString, good, bad in H;
      repeat match type of H with
             | (if ?b then _ else _) _ = _ => destruct b
             | (match ?x with _ => _ end) _ = _ => destruct x
             end; eapply G; try exact H; auto; intros st c Q; inversion Q. }
  destruct L as [-> L]. split; [apply touch_refl|]. apply parts_none. exact L.
Qed.
Definition anyType (ts : list string) (st : step) : Prop := exists t, In t ts /\ typeSteps t st.
Lemma types_tree : forall ts s gs s', parseTypes E (parseF E f false) (merge E f) ts n s = Ok (gs, s') -> NoDup ts ->
  pParsing s = doc -> pResolving s = rz -> pDepth s + Z.of_nat d <= pxMaxDepth E ->
  touch (anyType ts) s s' /\ forall g, In g gs -> parts (anyType ts) n s' (pPath s) g.
Proof.
  induction ts as [|t ts IH]; intros s gs s' H ND HP HR HD; cbn [parseTypes] in H.
  - apply pret_ok in H. destruct H as [-> ->]. split; [apply touch_refl|]. intros g [].
  - apply pbind_ok in H. destruct H as (g & s0 & H0 & H). apply pbind_ok in H. destruct H as (gs0 & s1 & H1 & H).
    apply pret_ok in H. destruct H as [-> ->]. apply NoDup_cons_iff in ND; destruct ND as [NI ND'].
    apply typed_tree in H0; auto. destruct H0 as [T0 W0]. pose proof T0 as [A1 A2 A3 A4 _].
    apply IH in H1; [|assumption|congruence|congruence|lia]. destruct H1 as [T1 W1].
    split.
    + eapply touch_weak; [eapply touch_trans; [exact T0|exact T1]|]. intros st [X|(t' & I & X)]; [exists t|exists t']; cbn; auto.
    + intros g' [<-|I].
      * assert (Q : parts (typeSteps t) n s1 (pPath s1) (orNull g)).
        { eapply parts_touch; [rewrite A1; exact W0|exact T1|intros st [X _]; exact X|intros st (t' & _ & [X _]); exact X|].
          intros st X (t' & I & X'). assert (t = t') by (eapply typeSteps_apart; eauto). subst. contradiction. }
        rewrite (tPath _ _ _ T1), A1 in Q. intros st c P. destruct (Q st c P) as [X Y]. split; [exists t; cbn; auto|exact Y].
      * rewrite A1 in W1. intros st c P. destruct (W1 g' I st c P) as [(t' & It & X) Y]. split; [exists t'; cbn; auto|exact Y].
Qed.
Lemma multiple_tree : forall ts s r s', parseMultiple E (parseF E f false) (merge E f) ts n s = Ok (r, s') -> NoDup ts ->
  pParsing s = doc -> pResolving s = rz -> pDepth s + Z.of_nat d <= pxMaxDepth E ->
  touch (anyType ts) s s' /\ parts (anyType ts) n s' (pPath s) (orNull r).
Proof.
  intros ts s r s' H ND HP HR HD. unfold parseMultiple in H. apply pbind_ok in H. destruct H as (gs & s0 & H0 & H).
  unfold good in H. apply pret_ok in H. destruct H as [-> ->]. apply types_tree in H0; auto. destruct H0 as [T W]. split; [exact T|].
  cbn [orNull]. intros st c Q. inversion Q; subst; try (match goal with X : part _ _ _ |- _ => eapply W; eauto end).
Qed.
End OneNode.

Lemma compile_touch : forall n f s r s', compileNode E n f s = Ok (r, s') -> touch none s s'.
Proof.
  intros n f s r s' H. unfold compileNode in H. destruct (assoc _ (pRes s)); injection H as _ <-; [apply touch_refl|constructor; auto].
Qed.
Lemma typeAll_nodup : NoDup typeAll.
Proof. repeat (constructor; [cbn; intuition congruence|]). constructor. Qed.
Lemma anyType_one : forall t st, typeSteps t st -> anyType [t] st. Proof. intros. exists t. cbn. auto. Qed.

Lemma step_tree : forall d f n s r s', tree (S d) n -> (forall st c, sRef n = None -> down n st = Some c -> claim d c) ->
  stepF E f n s = Ok (r, s') -> pParsing s = doc -> pResolving s = rz -> pDepth s + Z.of_nat d <= pxMaxDepth E ->
  touch someSteps s s' /\ parts someSteps n s' (pPath s) (orNull r).
Proof.
  intros d f n s r s' HT HK H HP HR HD. unfold stepF, schemaStep in H.
  assert (L : forall z, touch none s z -> leaf (orNull r) -> z = s' -> touch someSteps s s' /\ parts someSteps n s' (pPath s) (orNull r)).
  { intros z T Q ->. split; [eapply touch_weak; [exact T|intros st []]|apply parts_none; exact Q]. }
  assert (Lb : forall m, leaf (orNull (Bad m))) by (intros m st c Q; inversion Q).
  destruct (unsupported n). { unfold bad in H. apply pret_ok in H. destruct H as [-> ->]. eapply L; [apply touch_refl|apply Lb|reflexivity]. }
  destruct (sRef n) as [ref|] eqn:Er.
  { unfold parseReference in H. destruct (containsStr _ ref). { unfold bad in H. apply pret_ok in H. destruct H as [-> ->]. eapply L; [apply touch_refl|apply Lb|reflexivity]. }
    apply pbind_ok in H. destruct H as (x & s0 & H0 & H).
    assert (T0 : touch none s s0).
    { unfold deferredRef in H0. destruct (String.eqb _ ""); [injection H0 as _ <-; apply touch_refl|].
      destruct (resolveDocRef E s _ _) as [[d0 p0]|e]; [|injection H0 as _ <-; apply touch_refl].
      injection H0 as _ <-. destruct (_ && _); [constructor; auto|apply touch_refl]. }
    destruct x as [[d0 p0]|e]; unfold good, bad in H; apply pret_ok in H; destruct H as [-> ->]; eapply L; try exact T0; try reflexivity; auto.
    intros st c Q. inversion Q. }
  cbn [tree] in HT. destruct HT as (_ & _ & HT). destruct HT as [HT|HT]; [congruence|].
  destruct HT as (A1 & A2 & A3 & A4 & A5 & A6 & A7 & Hp & Hq & Ht & Hi & Ha & _).
  rewrite A1, A2, A3, A4, A5, A6, A7 in H. cbn [is_some orb] in H.
  destruct (match sEnum n with Some (_ :: _) => true | _ => false end) eqn:Ee.
  { destruct (sEnum n) as [[|v l]|] eqn:Ev; try discriminate. unfold parseEnum in H. apply pbind_ok in H. destruct H as (c & s0 & H0 & H). apply compile_touch in H0.
    assert (s' = s0 /\ leaf (orNull r)).
    { destruct c as [c|e]; [destruct (filter _ _) as [|? [|? ?]]|]; unfold good, bad in H; apply pret_ok in H; destruct H as [-> ->]; (split; [reflexivity|]); auto; intros st x Q; inversion Q. }
    destruct H1 as [-> Q]. eapply L; eauto. }
  assert (H' : (match sConst n with Some v => parseConst E n v | None =>
     match (match sType n with Some t => mtMultiple t | None => None end) with
     | Some ts => parseMultiple E (parseF E f false) (merge E f) ts n
     | None => match sType n with
      | Some t => if negb (String.eqb (mtSingle t) "") then parseType E (parseF E f false) (merge E f) (mtSingle t) n
                  else if String.eqb (inferType n) "unknown" then parseMultiple E (parseF E f false) (merge E f) typeAll n else parseType E (parseF E f false) (merge E f) (inferType n) n
      | None => if String.eqb (inferType n) "unknown" then parseMultiple E (parseF E f false) (merge E f) typeAll n else parseType E (parseF E f false) (merge E f) (inferType n) n
      end end end) s = Ok (r, s')) by (destruct (sEnum n) as [[|? ?]|]; try discriminate; exact H). clear H. rename H' into H.
  destruct (sConst n) as [v|].
  { unfold parseConst in H. apply pbind_ok in H. destruct H as (c & s0 & H0 & H). apply compile_touch in H0.
    assert (s' = s0 /\ leaf (orNull r)).
    { destruct c as [c|e]; [destruct (pxValid _ _ _)|]; unfold good, bad in H; apply pret_ok in H; destruct H as [-> ->]; (split; [reflexivity|]); auto; intros st x Q; inversion Q. }
    destruct H1 as [-> Q]. eapply L; eauto. }
  assert (HK' : forall st c, down n st = Some c -> claim d c) by (intros st c X; eapply HK; eauto).
  assert (M : forall ts, NoDup ts -> parseMultiple E (parseF E f false) (merge E f) ts n s = Ok (r, s') -> touch someSteps s s' /\ parts someSteps n s' (pPath s) (orNull r)).
  { intros ts ND X. apply (multiple_tree d f n Hp Hq Hi Ha HK') in X; auto. destruct X as [T W]. split.
    - eapply touch_weak; [exact T|]. intros st (t & _ & Y). exists t. exact Y.
    - intros st c Q. destruct (W st c Q) as [(t & _ & Y) Z0]. split; [exists t; exact Y|exact Z0]. }
  assert (O : forall t, parseType E (parseF E f false) (merge E f) t n s = Ok (r, s') -> touch someSteps s s' /\ parts someSteps n s' (pPath s) (orNull r)).
  { intros t X. apply (typed_tree d f n Hp Hq Hi Ha HK') in X; auto. destruct X as [T W]. split.
    - eapply touch_weak; [exact T|]. intros st Y. exists t. exact Y.
    - intros st c Q. destruct (W st c Q) as [Y Z0]. split; [exists t; exact Y|exact Z0]. }
  assert (I : (if String.eqb (inferType n) "unknown" then parseMultiple E (parseF E f false) (merge E f) typeAll n else parseType E (parseF E f false) (merge E f) (inferType n) n) s = Ok (r, s') -> touch someSteps s s' /\ parts someSteps n s' (pPath s) (orNull r)).
  { destruct (String.eqb _ _); [apply M, typeAll_nodup|apply O]. }
  destruct (sType n) as [t|].
  - destruct (mtMultiple t) as [ts|] eqn:Em; [eapply M; eauto|]. destruct (negb _); [eapply O; eauto|auto].
  - auto.
Qed.

(* ------------------------------------------------------------------ nodes *)
Lemma addRef_target : forall g s u s', addRef g s = Ok (u, s') -> pParsing s = doc ->
  pPath s' = pPath s /\ pParsing s' = pParsing s /\ pResolving s' = pResolving s /\ pDepth s' = pDepth s /\
  R s' (pPath s) = Some g /\ (forall q, q <> pPath s -> R s' q = R s q) /\ pErrs s' = pErrs s.
Proof.
  intros g s u s' H HP. unfold addRef, addIdRef in H. apply pmod_ok in H. subst s'. cbn. rewrite HP.
  split; [reflexivity|]. split; [reflexivity|]. split; [reflexivity|]. split; [reflexivity|]. unfold target. rewrite assoc_massign_same. split.
  - rewrite assoc_massign_same. reflexivity.
  - split; [|reflexivity]. intros q N. rewrite assoc_massign_other by auto. destruct (assoc doc (pRefs s)) as [m|]; reflexivity.
Qed.
Lemma longer : forall p x r, p ++ String x r <> p.
Proof. intros p x r H. apply (f_equal String.length) in H. rewrite length_app in H. cbn in H. lia. Qed.

Lemma tree_ref : forall d n, tree (S d) n -> sRef n = None -> forall st c, down n st = Some c -> tree d c.
Proof. intros d n (_ & _ & [H|H]) Hr; [congruence|]. tauto. Qed.
Lemma node_tree : forall d n, tree d n -> claim d n.
Proof.
  induction d as [|d IH]; intros n HT; [destruct HT|]. intros fuel s r s' H0 HP HR HD. pose proof H0 as H.
  unfold parseNode in H. destruct fuel as [|f]; [discriminate|]. cbn [parseF] in H. unfold nodeStep in H.
  apply pbind_ok in H. destruct H as (a & s0 & H1 & H). apply pget_ok in H1. destruct H1 as [-> ->].
  apply pbind_ok in H. destruct H as (u & s1 & H1 & H). apply pmod_ok in H1. subst s1.
  apply pbind_ok in H. destruct H as (r1 & s3 & H1 & H).
  apply pbind_ok in H. destruct H as (a & s4 & H2 & H). apply pget_ok in H2. destruct H2 as [-> ->].
  apply pbind_ok in H. destruct H as (u2 & s5 & H2 & H). apply pmod_ok in H2. subst s5. apply pret_ok in H. destruct H as [-> ->].
  destruct (Z.ltb_spec (pxMaxDepth E) (pDepth s + 1)); [lia|].
  apply pbind_ok in H1. destruct H1 as (u3 & s5 & H3 & H1). apply pmod_ok in H3. subst s5.
  apply pbind_ok in H1. destruct H1 as (r2 & s6 & H3 & H1).
  destruct f as [|f]; [discriminate|]. change (parseF E (S f) true n) with (stepF E f n) in H3.
  apply (step_tree d) in H3; [|exact HT|intros st c Hr Hc; apply IH; eapply tree_ref; eauto|exact HP|exact HR|cbn; lia].
  destruct H3 as [T W]. cbn [pPath withDeep withDepth] in W.
  apply pbind_ok in H1. destruct H1 as (u4 & s7 & H4 & H1).
  assert (T4 : touch none s6 s7).
  { destruct (isBad r2); [eapply err_touch; exact H4|apply pret_ok in H4; destruct H4 as [_ ->]; apply touch_refl]. }
  cbv zeta in H1. apply pbind_ok in H1. destruct H1 as (u5 & s8 & H5 & H1).
  pose proof HT as HT0. destruct HT as (Ei & Ec & _). rewrite Ei in H5. rewrite Ec in H1. apply pret_ok in H5. destruct H5 as [_ ->].
  apply pbind_ok in H1. destruct H1 as (u6 & s9 & H6 & H1). apply pret_ok in H1. destruct H1 as [-> ->].
  pose proof (touch_trans _ _ _ _ _ T T4) as T5. destruct T5 as [A1 A2 A3 A4 A5 A6]. cbn [pPath pParsing pResolving pDepth withDeep withDepth pRefs pErrs] in A1, A2, A3, A4, A5, A6.
  apply addRef_target in H6; [|congruence]. destruct H6 as (B1 & B2 & B3 & B4 & B5 & B6 & B7).
  cbn [pPath pParsing pResolving pDepth withDeep withDepth pRefs pErrs].
  split; [congruence|]. split; [congruence|]. split; [congruence|]. split; [lia|]. rewrite A1 in B5, B6. split.
  { intros q Hq Hs. rewrite B6 by exact Hq. apply A5. intros st [X|[]]. apply Hs, X. }
  split; [|rewrite B7; exact A6].
  - intros p h P. inversion P as [g|g st c p' h' Q P']; subst.
    + cbn [pointer]. rewrite append_nil. split; [exact B5|]. exists n. split; [reflexivity|]. exists (S (S f)), s, r2, (withDepth (pDepth s9 - 1) s9).
      split; [exact H0|]. split; [exact HP|]. split; [|split; [reflexivity|split; [cbn [pDepth withDepth List.length]; lia|split; [cbn [pDepth withDepth List.length]; lia|split; [reflexivity|split; [exists (S d); exact HT0|apply incl_refl]]]]]]. unfold scope. rewrite HR, HP. destruct Hrz as [->| ->]; [reflexivity|]. destruct (String.eqb doc _); reflexivity.
    + destruct (W st c Q) as (_ & m & Hm & Wm). destruct (Wm p' h P') as (C1 & m' & C2 & C3).
      rewrite pointer_cons, <- append_assoc. split.
      * rewrite B6. 2:{ rewrite append_assoc, txt_eq. apply longer. }
        rewrite (tRefs _ _ _ T4); [exact C1|intros st' []].
      * cbn [pErrs withDepth]. rewrite B7. refine (made_more _ _ _ _ _ _ _ _ (tErrs _ _ _ T4) _ (ex_intro _ m' (conj _ C3))).
        { cbn [pDepth withDepth List.length]. pose proof (tDepth _ _ _ T) as A7. pose proof (tDepth _ _ _ T4) as A8. cbn [pDepth withDeep withDepth] in *. lia. }
        cbn [addressed]. rewrite Hm. exact C2.
Qed.

(* ------------------------------------------------------------------ documents *)
Lemma defs_tree : forall d f kwd l s gs s', In kwd ["definitions"; "$defs"] -> parseDefs E f kwd l s = Ok (gs, s') ->
  pParsing s = doc -> pResolving s = rz -> pDepth s + Z.of_nat d <= pxMaxDepth E ->
  NoDup (map fst l) -> (forall k, In k (map fst l) -> noSlash k) -> (forall k c, In (k, c) l -> tree d c) ->
  touch (names kwd (map fst l)) s s' /\
  (forall k c, In (k, c) l -> exists g, whole c s' (pPath s ++ txt (Named kwd k)) g).
Proof.
  intros d f kwd l s gs s' HK. revert s gs s'. induction l as [|[k n] l IH]; intros s gs s' H HP HR HD ND NS HC; cbn [parseDefs] in H.
  - apply pret_ok in H. destruct H as [-> ->]. split; [apply touch_refl|]. intros k c [].
  - apply pbind_ok in H. destruct H as (g & s0 & H0 & H). apply pbind_ok in H. destruct H as (gs0 & s1 & H1 & H).
    apply pret_ok in H. destruct H as [-> ->]. cbn [map fst] in *. apply NoDup_cons_iff in ND; destruct ND as [NI ND'].
    change ("/" ++ kwd ++ "/" ++ k) with (txt (Named kwd k)) in H0.
    apply (scope_sources d) in H0; auto; [|apply node_tree; eapply HC; left; reflexivity]. destruct H0 as [T0 W0].
    pose proof T0 as [A1 A2 A3 A4 A5].
    apply IH in H1; [|congruence|congruence|lia|assumption|intros; apply NS; right; assumption|intros; eapply HC; right; eassumption].
    destruct H1 as [T1 W1].
    assert (TK : forall x, noSlash x -> taken (Named kwd x)) by (intros x Hx; split; [cbn in HK |- *; tauto|exact Hx]).
    split.
    + eapply touch_weak; [eapply touch_trans; [exact T0|exact T1]|]. intros st X. apply names_cons; auto.
    + rewrite A1 in W1. intros k' c [X|X].
      * injection X as <- <-. exists (orNull g). rewrite <- A1. eapply whole_touch; [exact T1| | | |rewrite A1; exact W0].
        -- intros st (k' & I & ->). apply TK, NS. right. exact I.
        -- apply TK, NS. left. reflexivity.
        -- intros (k' & I & X). injection X as ->. contradiction.
      * apply W1. exact X.
Qed.
Lemma someSteps_taken : forall st, someSteps st -> taken st. Proof. intros st (t & X & _). exact X. Qed.
Lemma someSteps_defs : forall kwd x, In kwd ["definitions"; "$defs"] -> ~ someSteps (Named kwd x).
Proof.
  intros kwd x I (t & _ & X). cbn [kw] in X.
  destruct (String.eqb t "object"); [|destruct (String.eqb t "array")]; cbn [In] in *; intuition congruence.
Qed.
Lemma whole_agrees : forall n s refs start g m, whole m s ("#" ++ pointer start) g -> addressed n start = Some m -> pRefs s = refs -> pDepth s = 0 -> agrees E (pErrs s) refs doc n start g.
Proof.
  intros n s refs start g m W A <- Z0 p h P. destruct (W p h P) as (B & m' & C & D). rewrite Z0 in D.
  assert (PA : forall a b, pointer (a ++ b) = pointer a ++ pointer b).
  { induction a as [|x a IH]; intros b; [reflexivity|]. cbn [app]. rewrite !pointer_cons, IH, append_assoc. reflexivity. }
  assert (AA : forall l k x y, addressed x l = Some y -> addressed x (l ++ k) = addressed y k).
  { induction l as [|z l IH]; intros k x y X; cbn in *; [injection X as ->; reflexivity|]. destruct (down x z); [|discriminate]. apply IH. exact X. }
  exists m'. rewrite PA, <- append_assoc. split; [rewrite (AA _ _ _ _ A); exact C|]. split; [exact B|exact D].
Qed.
Lemma root_tree : forall d f n s r s', treeDocument d n -> parseRoot E f n s = Ok (r, s') ->
  pParsing s = doc -> pResolving s = rz -> pPath s = "#" -> pDepth s = 0 -> Z.of_nat d <= pxMaxDepth E ->
  agrees E (pErrs s') (pRefs s') doc n [] (orNull r) /\
  forall st c, down n st = Some c -> kw st = "$defs" \/ kw st = "definitions" -> exists g, agrees E (pErrs s') (pRefs s') doc n [st] g.
Proof.
  intros d f n s r s' (HT & [N1 S1] & [N2 S2] & HC) H HP HR HQ H0 HD. unfold parseRoot in H.
  apply pbind_ok in H. destruct H as (g1 & s1 & H1 & H). apply pbind_ok in H. destruct H as (g2 & s2 & H2 & H).
  assert (AI : forall A k (v : A) m, assoc k m = Some v -> In (k, v) m) by (intros; apply assoc_In; assumption).
  apply (defs_tree d) in H1; auto; [|cbn; tauto|lia|intros k c I; apply (HC k); left; apply In_assoc; auto]. destruct H1 as [T1 W1]. pose proof T1 as [A1 A2 A3 A4 _].
  apply (defs_tree d) in H2; [|cbn; tauto|congruence|congruence|lia|assumption|assumption|intros k c I; apply (HC k); right; apply In_assoc; auto]. destruct H2 as [T2 W2]. pose proof T2 as [B1 B2 B3 B4 _].
  pose proof (node_tree d n HT f s2 r s' H ltac:(congruence) ltac:(congruence) ltac:(lia)) as (C1 & C2 & C3 & C4 & C5 & W & C6).
  assert (T3 : forall st c g, taken st -> ~ someSteps st -> whole c s2 ("#" ++ txt st) g -> whole c s' ("#" ++ txt st) g).
  { intros st c g HS NSt Wc p h P. destruct (Wc p h P) as [X Y]. split; [|refine (made_more _ _ _ _ _ _ _ _ C6 _ Y); lia]. rewrite C5; [exact X| |].
    - rewrite B1, A1, HQ, append_assoc, txt_eq. apply longer.
    - intros st' S' U. rewrite B1, A1, HQ in U. apply NSt. replace st with st'; [exact S'|].
      eapply steps_apart; [apply someSteps_taken; exact S'|exact HS|exact U|]. apply pointer_under. }
  split.
  - eapply whole_agrees; [|reflexivity|reflexivity|lia]. rewrite B1, A1, HQ in W. exact W.
  - intros st c Hd Hk.
    assert (HS : exists k kwd, st = Named kwd k /\ In kwd ["definitions"; "$defs"]).
    { destruct st as [k|k x|k i]; cbn [kw] in Hk; destruct Hk as [-> | ->]; try discriminate; eexists; eexists; (split; [reflexivity|cbn; tauto]). }
    destruct HS as (k & kwd & -> & HI). cbn [kw] in Hk.
    assert (HS : In k (map fst (get_or (named n kwd) [])) /\ exists g, whole c s2 ("#" ++ txt (Named kwd k)) g).
    { cbn [down] in Hd. destruct Hk as [-> | ->]; cbn [named] in *.
      - destruct (sDefs n) as [l|]; [|discriminate]. apply AI in Hd. split; [apply in_map_iff; exists (k, c); auto|].
        destruct (W1 k c Hd) as [g Wg]. exists g. rewrite <- HQ, <- A1. eapply whole_touch; [exact T2| | | |rewrite A1; exact Wg].
        + intros st (x & I & ->). split; [cbn; tauto|apply S2; exact I].
        + split; [cbn; tauto|]. apply S1. apply in_map_iff. exists (k, c). auto.
        + intros (x & _ & X). discriminate.
      - destruct (sDefinitions n) as [l|]; [|discriminate]. apply AI in Hd. split; [apply in_map_iff; exists (k, c); auto|].
        destruct (W2 k c Hd) as [g Wg]. exists g. rewrite <- HQ, <- A1. exact Wg. }
    destruct HS as [HI' [g Wg]]. exists g. eapply whole_agrees with (m := c); [|cbn [addressed]; rewrite Hd; reflexivity|reflexivity|lia].
    cbn [pointer]. change ("/" ++ written (Named kwd k) ++ "") with (txt (Named kwd k) ++ ""). rewrite append_nil. apply T3; [|apply someSteps_defs; exact HI|exact Wg].
    split; [cbn in HI |- *; tauto|]. destruct Hk as [-> | ->]; [apply S1|apply S2]; exact HI'.
Qed.
End Tree.

(* ------------------------------------------------------------------ finding trees *)
Ltac keyword := repeat (match goal with
    |- match ?k with EmptyString => _ | String _ _ => _ end = None \/ _ => destruct k
  | |- match ?a with Ascii _ _ _ _ _ _ _ _ => _ end = None \/ _ => destruct a
  | |- (if ?b then _ else _) = None \/ _ => destruct b
  end; try (left; reflexivity)); right; cbn [In]; tauto.
Lemma single_known : forall n k, single n k = None \/ In k ["additionalProperties"; "items"; "contains"; "additionalItems"; "unevaluatedItems"; "not"; "if"; "then"; "else"].
Proof. intros n k. unfold single. keyword. Qed.
Lemma named_known : forall n k, named n k = None \/ In k ["properties"; "patternProperties"; "definitions"; "$defs"].
Proof. intros n k. unfold named. keyword. Qed.
Lemma listed_known : forall n k, listed n k = None \/ In k ["prefixItems"; "items"; "allOf"; "anyOf"; "oneOf"].
Proof. intros n k. unfold listed. keyword. Qed.
Lemma down_sub : forall n st c, down n st = Some c -> In c (subnodes n).
Proof.
  intros n st c H.
  assert (F : forall o x, orFalse o = Some x -> In x (nofs o)) by (intros [o|] x X; cbn in *; [destruct (nofFalse o); [discriminate|]; rewrite X; cbn; auto|discriminate]).
  assert (O : forall o x, o = Some x -> In x (onode o)) by (intros o x ->; cbn; auto).
  assert (T : forall x, match sItems n with Some d => itNode d | None => None end = Some x -> In x (itemss (sItems n))).
  { intros x X. unfold itemss. destruct (sItems n) as [d|]; [|discriminate]. rewrite X. cbn. auto. }
  assert (M : forall o k x, match o with Some l => assoc k l | None => None end = Some x -> In x (omaps o)).
  { intros [l|] k x X; [|discriminate]. apply assoc_In in X. apply in_map_iff. exists (k, x). auto. }
  assert (L : forall o i x, match o with Some l => nth_error l i | None => None end = Some x -> In x (olist o)).
  { intros [l|] i x X; [|discriminate]. eapply nth_error_In; eauto. }
  assert (LI : forall i x, match match sItems n with Some d => itNodes d | None => None end with Some l => nth_error l i | None => None end = Some x -> In x (itemss (sItems n))).
  { intros i x X. unfold itemss. destruct (sItems n) as [d|]; [|discriminate]. apply in_or_app. right. eapply L; eauto. }
  unfold subnodes. rewrite !in_app_iff. destruct st as [k|k x|k i]; cbn [down] in H.
  - destruct (single_known n k) as [X|X]; [congruence|]. cbn [In] in X.
    repeat (destruct X as [<-|X]; [cbn [single] in H; first [apply F in H | apply T in H | apply O in H]; tauto|]). destruct X.
  - destruct (named_known n k) as [X|X]; [rewrite X in H; discriminate|]. cbn [In] in X.
    repeat (destruct X as [<-|X]; [cbn [named] in H; apply M in H; tauto|]). destruct X.
  - destruct (listed_known n k) as [X|X]; [rewrite X in H; discriminate|]. cbn [In] in X.
    repeat (destruct X as [<-|X]; [cbn [listed] in H; first [apply LI in H | apply L in H]; tauto|]). destruct X.
Qed.
Lemma clear_none : forall A, @clearNames A None.
Proof. intros A. split; [constructor|intros k []]. Qed.
