(* What an accepted node was turned into. *)
From Coq Require Import ZArith List String Bool Lia.
From Verif Require Import Base Float64 Json Schema Util Number Gen GenInv PState RefPath Merge NotMerge Parse PFacts SpecRun.
Import ListNotations.
Open Scope string_scope.
Open Scope Z_scope.

Lemma good_ok : forall A (x y : A) s s', good x s = Ok (Good y, s') -> y = x /\ s' = s.
Proof. unfold good, pret. intros. injection H; auto. Qed.
Lemma bad_ok : forall A t (y : A) s s', bad t s = Ok (Good y, s') -> False.
Proof. unfold bad, pret. intros. discriminate. Qed.

Section Shape.
Variable PE : penv.

Definition stepF (f : nat) : schemaNode -> P (err gen) :=
  schemaStep PE (parseF PE f false) (parseF PE f true) (merge PE f) (fun n => applyNots PE f n emptyColl).

(* the result of parseNode comes from parseSchemaNode, at a depth within the limit *)
Lemma parseNode_inv : forall fuel n s r s', parseNode PE fuel n s = Ok (r, s') ->
  exists f, fuel = S f /\
  ((r = Bad "maximum parse depth" /\ pxMaxDepth PE < pDepth s + 1) \/
   (pDepth s + 1 <= pxMaxDepth PE /\ exists f' s1 r0 s2, f = S f' /\ pPath s1 = pPath s /\ pRes s1 = pRes s /\ scope s1 = scope s /\
      pDepth s1 <= pxMaxDepth PE /\ pDepth s1 <= pDeep s1 /\
      stepF f' n s1 = Ok (r0, s2) /\
      r = match sConstraints n with Some c => Good (GConstrained (orNull r0) [CMulti c]) | None => r0 end)).
Proof.
  intros fuel n s r s' H. unfold parseNode in H. destruct fuel as [|f]; [discriminate|]. exists f. split; auto.
  cbn [parseF] in H. unfold nodeStep in H.
  apply pbind_ok in H. destruct H as (a & s0 & H0 & H). apply pget_ok in H0. destruct H0 as [-> ->].
  apply pbind_ok in H. destruct H as (u & s0 & H0 & H). apply pmod_ok in H0. subst s0.
  apply pbind_ok in H. destruct H as (r1 & s3 & H0 & H).
  apply pbind_ok in H. destruct H as (a & s4 & H1 & H). apply pget_ok in H1. destruct H1 as [-> ->].
  apply pbind_ok in H. destruct H as (a & s5 & H1 & H). apply pret_ok in H. destruct H as [-> ->].
  destruct (Z.ltb_spec (pxMaxDepth PE) (pDepth s + 1)).
  - left. unfold bad in H0. apply pret_ok in H0. destruct H0 as [-> _]. auto.
  - right. split; [lia|].
    apply pbind_ok in H0. destruct H0 as (a' & s0 & H2 & H0). apply pmod_ok in H2. subst s0.
    apply pbind_ok in H0. destruct H0 as (r0 & s2 & H2 & H0).
    destruct f as [|f']; [discriminate|]. cbn [parseF] in H2.
    exists f', (withDeep (Z.max (pDeep s) (pDepth s + 1)) (withDepth (pDepth s + 1) s)), r0, s2.
    split; auto. split; auto. split; auto. split; auto.
    split; [cbn; lia|]. split; [cbn; lia|]. split; [exact H2|].
    apply pbind_ok in H0. destruct H0 as (x1 & y1 & H3 & H0).
    apply pbind_ok in H0. destruct H0 as (x2 & y2 & H4 & H0).
    apply pbind_ok in H0. destruct H0 as (x3 & y3 & H5 & H0).
    destruct (sConstraints n).
    + unfold good in H0. apply pret_ok in H0. destruct H0. auto.
    + apply pret_ok in H0. destruct H0. auto.
Qed.

Lemma accepted_step : forall n g, sConstraints n = None -> accepted PE n g ->
  exists f s s', stepF f n s = Ok (Good g, s').
Proof.
  intros n g HC (fuel & s & s' & H). apply parseNode_inv in H.
  destruct H as (f & -> & [(H & _)|(_ & f' & s1 & r0 & s2 & _ & _ & _ & _ & _ & _ & H & H1)]); [discriminate|].
  rewrite HC in H1. subst r0. eauto.
Qed.

Lemma accepted_deep : forall n g, sConstraints n = None -> accepted PE n g ->
  exists f s s', stepF f n s = Ok (Good g, s') /\ pDepth s <= pxMaxDepth PE /\ pDepth s <= pDeep s.
Proof.
  intros n g HC (fuel & s & s' & H). apply parseNode_inv in H.
  destruct H as (f & -> & [(H & _)|(_ & f' & s1 & r0 & s2 & _ & _ & _ & _ & D1 & D2 & H & H1)]); [discriminate|].
  rewrite HC in H1. subst r0. exists f', s1, s2. auto.
Qed.

(* the body of a plain node *)
Definition byType (f : nat) (n : schemaNode) : P (err gen) :=
  match (match sType n with Some t => mtMultiple t | None => None end) with
  | Some ts => parseMultiple PE (parseF PE f false) (merge PE f) ts n
  | None =>
      match sType n with
      | Some t => if negb (String.eqb (mtSingle t) "") then parseType PE (parseF PE f false) (merge PE f) (mtSingle t) n
                  else if String.eqb (inferType n) "unknown" then parseMultiple PE (parseF PE f false) (merge PE f) typeAll n
                  else parseType PE (parseF PE f false) (merge PE f) (inferType n) n
      | None => if String.eqb (inferType n) "unknown" then parseMultiple PE (parseF PE f false) (merge PE f) typeAll n
                else parseType PE (parseF PE f false) (merge PE f) (inferType n) n
      end
  end.
Lemma step_plain : forall f n, plain n -> unsupported n = false -> stepF f n = byType f n.
Proof.
  intros f n [A1 A2 A3 A4 A5 A6 A7 A8 A9 A10 A11] HU. unfold stepF, schemaStep. rewrite HU, A1, A2, A4, A3, A5, A9, A6, A10, A7, A8.
  reflexivity.
Qed.
Lemma step_supported : forall f n s g s', stepF f n s = Ok (Good g, s') -> unsupported n = false.
Proof.
  intros f n s g s' H. unfold stepF, schemaStep in H. destruct (unsupported n); auto. apply bad_ok in H. tauto.
Qed.
Lemma accepted_plain : forall n g, plain n -> accepted PE n g -> exists f s s', byType f n s = Ok (Good g, s').
Proof.
  intros n g HP H. apply accepted_step in H; [|apply HP]. destruct H as (f & s & s' & H).
  exists f, s, s'. rewrite <- step_plain; auto. eapply step_supported; eauto.
Qed.
Lemma accepted_typed : forall n g t, plain n -> ofType t n -> t <> "" -> accepted PE n g ->
  exists f s s', parseType PE (parseF PE f false) (merge PE f) t n s = Ok (Good g, s').
Proof.
  intros n g t HP HT Ht H. apply accepted_plain in H; auto. destruct H as (f & s & s' & H). exists f, s, s'.
  unfold byType in H. rewrite HT in H. cbn [mtMultiple mtSingle] in H.
  destruct (String.eqb_spec t ""); [congruence|]. exact H.
Qed.

Lemma inScope_ok : forall f sc n srcs s r s', inScope PE (parseF PE f false) sc n srcs s = Ok (r, s') ->
  exists s1 s2, parseNode PE f n s1 = Ok (r, s2).
Proof.
  intros f sc n srcs s r s' H. unfold inScope in H.
  apply pbind_ok in H. destruct H as (a & s0 & H0 & H).
  apply pbind_ok in H. destruct H as (k & s1 & H1 & H).
  apply pbind_ok in H. destruct H as (r0 & s2 & H2 & H).
  apply pbind_ok in H. destruct H as (a3 & s3 & H3 & H).
  apply pbind_ok in H. destruct H as (a4 & s4 & H4 & H).
  apply pret_ok in H. destruct H as [-> ->]. exists s1, s2. exact H2.
Qed.

Lemma inScope_child : forall f sc n srcs s r s', inScope PE (parseF PE f false) sc n srcs s = Ok (r, s') -> childOf PE n (orNull r).
Proof.
  intros. apply inScope_ok in H. destruct H as (s1 & s2 & H). destruct r as [g|m].
  - left. exists f, s1, s2. exact H.
  - right. split; auto. exists f, s1, s2, m. exact H.
Qed.
Lemma inScope_accepted : forall f sc n srcs s g s', inScope PE (parseF PE f false) sc n srcs s = Ok (Good g, s') -> accepted PE n g.
Proof. intros. apply inScope_ok in H. destruct H as (s1 & s2 & H). exists f, s1, s2. exact H. Qed.

(* ------------------------------------------------------------------ strings *)
Lemma parseString_shape : forall n s g s', parseString PE n s = Ok (Good g, s') ->
  g = GString (get_or (sFormat n) "") (get_or (sPattern n) "") (get_or (sMinLength n) 0) (get_or (sMaxLength n) 0) /\
  0 <= get_or (sMinLength n) 0 /\ 0 <= get_or (sMaxLength n) 0 /\
  (get_or (sMaxLength n) 0 = 0 \/ get_or (sMinLength n) 0 <= get_or (sMaxLength n) 0) /\
  (forall p, sPattern n = Some p -> pxRegexOk PE p = true).
Proof.
  intros n s g s' H. unfold parseString in H.
  destruct (is_some (sFormat n) && is_some (sPattern n)); [apply bad_ok in H; tauto|].
  destruct ((get_or (sMaxLength n) 0 <? 0) || (get_or (sMinLength n) 0 <? 0)) eqn:B1; [apply bad_ok in H; tauto|].
  destruct ((get_or (sMaxLength n) 0 <? get_or (sMinLength n) 0) && negb (get_or (sMaxLength n) 0 =? 0)) eqn:B2; [apply bad_ok in H; tauto|].
  destruct ((is_some (sPattern n) || is_some (sFormat n)) && (is_some (sMinLength n) || is_some (sMaxLength n))); [apply bad_ok in H; tauto|].
  apply orb_false_iff in B1. destruct B1 as [B11 B12]. apply Z.ltb_ge in B11, B12.
  assert (B : get_or (sMaxLength n) 0 = 0 \/ get_or (sMinLength n) 0 <= get_or (sMaxLength n) 0).
  { apply andb_false_iff in B2. destruct B2 as [B2|B2]; [right; now apply Z.ltb_ge in B2|left].
    destruct (Z.eqb_spec (get_or (sMaxLength n) 0) 0); auto. discriminate. }
  destruct (sPattern n) as [p|].
  - destruct (pxRegexOk PE p) eqn:R; [|apply bad_ok in H; tauto]. apply good_ok in H. destruct H as [-> _].
    split; auto. split; auto. split; auto. split; auto. intros q Hq. injection Hq as <-. auto.
  - apply good_ok in H. destruct H as [-> _]. split; auto. split; auto. split; auto. split; auto. discriminate.
Qed.

(* ------------------------------------------------------------------ objects *)
Lemma parseProps_shape : forall f l s gs s', parseProps PE (parseF PE f false) l s = Ok (gs, s') ->
  Forall2 (fun kn kg => fst kg = fst kn /\ childOf PE (snd kn) (snd kg)) l gs.
Proof.
  induction l as [|[k n] r IH]; intros s gs s' H; cbn [parseProps] in H.
  - apply pret_ok in H. destruct H as [-> ->]. constructor.
  - apply pbind_ok in H. destruct H as (g & s0 & H0 & H). apply pbind_ok in H. destruct H as (gs0 & s1 & H1 & H).
    apply pret_ok in H. destruct H as [-> ->]. constructor; eauto. split; auto. simpl. eapply inScope_child; eauto.
Qed.
Lemma parsePatterns_shape : forall f l s gs s', parsePatterns PE (parseF PE f false) l s = Ok (gs, s') ->
  Forall2 (fun kn kg => fst kg = fst kn /\ fst (snd kg) = pxPropRegexOk PE (fst kn) /\ childOf PE (snd kn) (snd (snd kg))) l gs.
Proof.
  induction l as [|[k n] r IH]; intros s gs s' H; cbn [parsePatterns] in H.
  - apply pret_ok in H. destruct H as [-> ->]. constructor.
  - apply pbind_ok in H. destruct H as (g & s0 & H0 & H). apply pbind_ok in H. destruct H as (u & s1 & H1 & H).
    apply pbind_ok in H. destruct H as (gs0 & s2 & H2 & H).
    apply pret_ok in H. destruct H as [-> ->]. constructor; eauto. split; auto. split; auto. simpl. eapply inScope_child; eauto.
Qed.

Lemma parseObject_shape : forall f n s g s', parseObject PE (parseF PE f false) n s = Ok (Good g, s') ->
  exists ps pats add, g = GObject ps pats add (mkObj (addlFalse n) (get_or (sMinProperties n) 0) (get_or (sMaxProperties n) 0) (get_or (sRequired n) [])) /\
  Forall2 (fun kn kg => fst kg = fst kn /\ childOf PE (snd kn) (snd kg)) (get_or (sProperties n) []) ps /\
  Forall2 (fun kn kg => fst kg = fst kn /\ fst (snd kg) = pxPropRegexOk PE (fst kn) /\ childOf PE (snd kn) (snd (snd kg))) (get_or (sPatternProperties n) []) pats /\
  match addlNode n with Some sub => exists a, add = Some a /\ childOf PE sub a | None => add = None end /\
  0 <= get_or (sMinProperties n) 0 /\ 0 <= get_or (sMaxProperties n) 0 /\
  (forall m, sMaxProperties n = Some m -> get_or (sMinProperties n) 0 <= m /\ Z.of_nat (List.length (get_or (sRequired n) [])) <= m) /\
  (addlFalse n = true -> sPatternProperties n = None -> get_or (sMinProperties n) 0 <= Z.of_nat (List.length (get_or (sProperties n) []))).
Proof.
  intros f n s g s' H. unfold parseObject in H.
  destruct (Z.ltb_spec (get_or (sMinProperties n) 0) 0); [apply bad_ok in H; tauto|].
  destruct (Z.ltb_spec (get_or (sMaxProperties n) 0) 0); [apply bad_ok in H; tauto|].
  destruct (is_some (sMaxProperties n) && (get_or (sMaxProperties n) 0 <? get_or (sMinProperties n) 0)) eqn:B1; [apply bad_ok in H; tauto|].
  destruct (is_some (sMaxProperties n) && (get_or (sMaxProperties n) 0 <? Z.of_nat (List.length (get_or (sRequired n) [])))) eqn:B2; [apply bad_ok in H; tauto|].
  match type of H with context [if ?b then bad _ else _] => destruct b eqn:B3; [apply bad_ok in H; tauto|] end.
  assert (FA : nofFalse (get_or (sAdditionalProperties n) (mkNOF None false)) = addlFalse n).
  { unfold addlFalse. destruct (sAdditionalProperties n); auto. }
  assert (FN : (if nofFalse (get_or (sAdditionalProperties n) (mkNOF None false)) then None
                else nofSchema (get_or (sAdditionalProperties n) (mkNOF None false))) = addlNode n).
  { unfold addlNode. destruct (sAdditionalProperties n); auto. }
  rewrite FA in *. rewrite FN in H. clear FA FN.
  apply pbind_ok in H. destruct H as (pats & s0 & H9 & H).
  apply pbind_ok in H. destruct H as (ps & s1 & H2 & H).
  apply pbind_ok in H. destruct H as (add & s2 & H3 & H).
  apply good_ok in H. destruct H as [-> _]. exists ps, pats, add.
  split; auto. split; [eapply parseProps_shape; eauto|]. split; [eapply parsePatterns_shape; eauto|].
  split; [|split; [|split; [|split]]]; auto.
  - destruct (addlNode n) as [sub|].
    + apply pbind_ok in H3. destruct H3 as (r & s3 & H3 & H4). apply pret_ok in H4. destruct H4 as [-> _].
      exists (orNull r). split; auto. eapply inScope_child; eauto.
    + apply pret_ok in H3. tauto.
  - intros m Hm. rewrite Hm in B1, B2. cbn [is_some get_or andb] in B1, B2. apply Z.ltb_ge in B1, B2. auto.
  - intros Ha Hp. rewrite Ha, Hp in B3. cbn [is_some negb andb] in B3. now apply Z.ltb_ge in B3.
Qed.

(* ------------------------------------------------------------------ arrays *)
Lemma optScope_shape : forall f sc o s r s', optScope PE (parseF PE f false) sc o s = Ok (Good r, s') ->
  match o with Some n => exists g, r = Some g /\ accepted PE n g | None => r = None end.
Proof.
  intros f sc o s r s' H. unfold optScope in H. destruct o as [n|].
  - apply pbind_ok in H. destruct H as (x & s0 & H0 & H). destruct x as [g|m]; [|apply bad_ok in H; tauto].
    apply good_ok in H. destruct H as [-> _]. exists g. split; auto. eapply inScope_accepted; eauto.
  - apply good_ok in H. tauto.
Qed.
Lemma parseTuple_shape : forall f l i s r s', parseTuple PE (parseF PE f false) i l s = Ok (Good r, s') ->
  Forall2 (accepted PE) l r.
Proof.
  induction l as [|n l IH]; intros i s r s' H; cbn [parseTuple] in H.
  - apply good_ok in H. destruct H as [-> _]. constructor.
  - apply pbind_ok in H. destruct H as (x & s0 & H0 & H). destruct x as [g|m]; [|apply bad_ok in H; tauto].
    apply pbind_ok in H. destruct H as (y & s1 & H1 & H). destruct y as [gs|m]; [|apply bad_ok in H; tauto].
    apply good_ok in H. destruct H as [-> _]. constructor; eauto. eapply inScope_accepted; eauto.
Qed.

Definition ofOption (o : option schemaNode) (r : option gen) : Prop :=
  match o with Some n => exists g, r = Some g /\ accepted PE n g | None => r = None end.

Lemma badBounds_false : forall a b, badBounds a b = false -> a = 0 \/ b = 0 \/ (0 < a <= b).
Proof.
  unfold badBounds. intros a b H. destruct (Z.eqb_spec a 0); auto. destruct (Z.eqb_spec b 0); auto.
  cbn [orb negb andb] in H. apply orb_false_iff in H. destruct H as [H H2]. apply orb_false_iff in H. destruct H as [H H1].
  apply Z.ltb_ge in H, H1, H2. lia.
Qed.

Lemma parseArray_shape : forall f n s g s', parseArray PE (parseF PE f false) (merge PE f) n s = Ok (Good g, s') ->
  let mni := get_or (sMinItems n) 0 in let mxi := get_or (sMaxItems n) 0 in
  let minc := minContainsOf n in let tl := prefixLength n in
  let only := itemsFalse n || addlItemsFalse n in
  let mn := if only then tl else getInt mni minc in
  let mx := if only then tl else getInt mxi (getInt mni minc + defaultOffset) in
  exists tu it ad ct un,
  g = GArray tu it ad ct un (mkArr (unevalFalse n) (get_or (sUniqueItems n) false) minc mn mx (itemsFalse n)) /\
  Forall2 (accepted PE) (tupleNodes n) tu /\
  ofOption (itemsNode n) it /\ ofOption (addlItemsNode n) ad /\ ofOption (unevalNode n) un /\
  match sContains n with Some c => exists c' gc, ct = Some gc /\ containsFrom PE c n c' /\ accepted PE c' gc | None => ct = None end /\
  badBounds mni mxi = false /\ badBounds minc (get_or (sMaxContains n) 0) = false /\ badBounds minc mni = false /\
  badBounds (tl + minc) mxi = false /\ (forall m, sMaxItems n = Some m -> tl <= m).
Proof.
  intros f n s g s' H. unfold parseArray in H. fold (minContainsOf n) in H. fold (prefixLength n) in H.
  destruct (badBounds (get_or (sMinItems n) 0) (get_or (sMaxItems n) 0)) eqn:B1; [apply bad_ok in H; tauto|].
  destruct (badBounds (minContainsOf n) (get_or (sMaxContains n) 0)) eqn:B2; [apply bad_ok in H; tauto|].
  destruct (badBounds (minContainsOf n) (get_or (sMinItems n) 0)) eqn:B3; [apply bad_ok in H; tauto|].
  destruct (badBounds (prefixLength n + minContainsOf n) (get_or (sMaxItems n) 0)) eqn:B4; [apply bad_ok in H; tauto|].
  destruct ((get_or (sMaxItems n) 0 <? prefixLength n) && is_some (sMaxItems n)) eqn:B5; [apply bad_ok in H; tauto|].
  cbv zeta in H. fold (itemsNode n) in H. fold (itemsFalse n) in H. fold (addlItemsFalse n) in H. fold (addlItemsNode n) in H.
  fold (unevalFalse n) in H. fold (unevalNode n) in H.
  apply pbind_ok in H. destruct H as (it & s0 & H0 & H). destruct it as [it|m]; [|apply bad_ok in H; tauto].
  apply pbind_ok in H. destruct H as (ad & s1 & H1 & H). destruct ad as [ad|m]; [|apply bad_ok in H; tauto].
  apply pbind_ok in H. destruct H as (ct & s2 & H2 & H). destruct ct as [ct|m]; [|apply bad_ok in H; tauto].
  apply pbind_ok in H. destruct H as (tu & s3 & H3 & H). destruct tu as [tu|m]; [|apply bad_ok in H; tauto].
  apply pbind_ok in H. destruct H as (un & s4 & H4 & H). destruct un as [un|m]; [|apply bad_ok in H; tauto].
  apply good_ok in H. destruct H as [-> _].
  apply optScope_shape in H0, H1, H4. apply parseTuple_shape in H3.
  exists tu, it, ad, ct, un. split; auto. split; auto. split; auto. split; auto. split; auto. split; [|split; [|split; [|split; [|split]]]]; auto.
  - unfold parseContains in H2. destruct (sContains n) as [c|].
    2:{ apply good_ok in H2. tauto. }
    apply pbind_ok in H2. destruct H2 as (c' & s5 & H5 & H2). apply optScope_shape in H2. destruct H2 as (gc & -> & A).
    exists c', gc. split; auto. split; auto. unfold containsFrom. destruct (sItems n) as [d|].
    2:{ apply pret_ok in H5. tauto. }
    destruct (itNode d) as [i|].
    2:{ apply pret_ok in H5. tauto. }
    apply pbind_ok in H5. destruct H5 as (m & s6 & H6 & H5). apply pret_ok in H5. destruct H5 as [-> ->].
    exists f, s1, m, s6. auto.
  - intros m Hm. rewrite Hm in B5. cbn [is_some get_or] in B5. rewrite andb_true_r in B5. now apply Z.ltb_ge in B5.
Qed.

(* ------------------------------------------------------------------ type lists *)
(* what one entry of a type list was turned into *)
Lemma parseTypes_shape : forall f ts n s gs s', parseTypes PE (parseF PE f false) (merge PE f) ts n s = Ok (gs, s') ->
  Forall2 (fun t g => exists r s1 s2, parseType PE (parseF PE f false) (merge PE f) t n s1 = Ok (r, s2) /\ g = orNull r) ts gs.
Proof.
  induction ts as [|t ts IH]; intros n s gs s' H; cbn [parseTypes] in H.
  - apply pret_ok in H. destruct H as [-> _]. constructor.
  - apply pbind_ok in H. destruct H as (r & s0 & H0 & H). apply pbind_ok in H. destruct H as (gs0 & s1 & H1 & H).
    apply pret_ok in H. destruct H as [-> _]. constructor; eauto.
Qed.

(* the type keyword decides how a plain node is read *)
Lemma byType_multiple : forall f n ts x s g s', sType n = Some (mkMT x (Some ts)) -> byType f n s = Ok (Good g, s') ->
  exists gs s1, g = GMulti gs /\ parseTypes PE (parseF PE f false) (merge PE f) ts n s = Ok (gs, s1).
Proof.
  intros f n ts x s g s' HT H. unfold byType in H. rewrite HT in H. cbn [mtMultiple] in H. unfold parseMultiple in H.
  apply pbind_ok in H. destruct H as (gs & s1 & H0 & H). apply good_ok in H. destruct H as [-> _]. eauto.
Qed.

(* ------------------------------------------------------------------ enum and const *)
(* the schema the program compiles for the node n at a field of the current path: n itself, unless a
   schema was registered before under the same normalised name *)
Lemma compileNode_shape : forall n field s c s', compileNode PE n field s = Ok (Good c, s') -> compiledAs PE s n field c.
Proof.
  intros n field s c s' H. unfold compileNode in H. unfold compiledAs.
  destruct (assoc (scope s ++ normalisePath (pPath s ++ "/" ++ field)) (pRes s)) as [old|]; cbn [get_or].
  - destruct (pxCompile PE old) eqn:C; inversion H; subst; auto.
  - destruct (pxCompile PE n) eqn:C; inversion H; subst; auto.
Qed.

Lemma parseEnum_shape : forall n s g s', parseEnum PE n s = Ok (Good g, s') ->
  exists c l, compiledAs PE s n "enum" c /\ l = filter (pxValid PE c) (get_or (sEnum n) []) /\
    ((exists v, l = [v] /\ g = GConst v) \/ (exists a b r, l = a :: b :: r /\ g = GEnum l)).
Proof.
  intros n s g s' H. unfold parseEnum in H. apply pbind_ok in H. destruct H as (x & s0 & H0 & H).
  destruct x as [c|m]; [|apply bad_ok in H; tauto]. apply compileNode_shape in H0.
  exists c, (filter (pxValid PE c) (get_or (sEnum n) [])). split; auto. split; auto.
  destruct (filter (pxValid PE c) (get_or (sEnum n) [])) as [|a [|b r]].
  - apply bad_ok in H; tauto.
  - apply good_ok in H. destruct H as [-> _]. left. eauto.
  - apply good_ok in H. destruct H as [-> _]. right. exists a, b, r. auto.
Qed.
Lemma parseConst_shape : forall n v s g s', parseConst PE n v s = Ok (Good g, s') ->
  exists c, compiledAs PE s n "const" c /\ pxValid PE c v = true /\ g = GConst v.
Proof.
  intros n v s g s' H. unfold parseConst in H. apply pbind_ok in H. destruct H as (x & s0 & H0 & H).
  destruct x as [c|m]; [|apply bad_ok in H; tauto]. apply compileNode_shape in H0. exists c. split; auto.
  destruct (pxValid PE c v) eqn:V; [|apply bad_ok in H; tauto]. apply good_ok in H. destruct H as [-> _]. auto.
Qed.

(* a node parsed in the state s *)
Lemma parseNode_step : forall fuel n s g s', sConstraints n = None -> parseNode PE fuel n s = Ok (Good g, s') ->
  exists f s1 s2, stepF f n s1 = Ok (Good g, s2) /\ pPath s1 = pPath s /\ pRes s1 = pRes s /\ scope s1 = scope s.
Proof.
  intros fuel n s g s' HC H. apply parseNode_inv in H.
  destruct H as (f & -> & [(H & _)|(_ & f' & s1 & r0 & s2 & _ & P1 & P2 & P3 & _ & _ & H & H1)]); [discriminate|].
  rewrite HC in H1. subst r0. exists f', s1, s2. auto.
Qed.

(* no reference, combination, condition or negation: what is left is enum, const or the type *)
Lemma step_enum : forall f n x l s g s', flat n -> sEnum n = Some (x :: l) -> stepF f n s = Ok (Good g, s') ->
  parseEnum PE n s = Ok (Good g, s').
Proof.
  intros f n x l s g s' [A1 A2 A3 A4 A5 A6 A7 A8 A9] HE H. pose proof (step_supported _ _ _ _ _ H) as HU.
  unfold stepF, schemaStep in H. rewrite HU, A1, A2, A4, A3, A5, A7, A6, A8, HE in H. exact H.
Qed.
Lemma step_const : forall f n v s g s', flat n -> (sEnum n = None \/ sEnum n = Some []) -> sConst n = Some v ->
  stepF f n s = Ok (Good g, s') -> parseConst PE n v s = Ok (Good g, s').
Proof.
  intros f n v s g s' [A1 A2 A3 A4 A5 A6 A7 A8 A9] HE HV H. pose proof (step_supported _ _ _ _ _ H) as HU.
  unfold stepF, schemaStep in H. rewrite HU, A1, A2, A4, A3, A5, A7, A6, A8, HV in H.
  destruct HE as [HE|HE]; rewrite HE in H; exact H.
Qed.

(* ------------------------------------------------------------------ anyOf, oneOf *)
Lemma parseBranches_shape : forall f one l i n s gs s', parseBranches PE (parseF PE f false) (merge PE f) one i n l s = Ok (gs, s') ->
  Forall2 (branchOf PE one n) l gs.
Proof.
  induction l as [|sub l IH]; intros i n s gs s' H; cbn [parseBranches] in H.
  - apply pret_ok in H. destruct H as [-> _]. constructor.
  - apply pbind_ok in H. destruct H as (base & s0 & H0 & H).
    apply pbind_ok in H. destruct H as (m & s1 & H1 & H).
    apply pbind_ok in H. destruct H as (g & s2 & H2 & H).
    apply pbind_ok in H. destruct H as (u & s3 & H3 & H).
    apply pbind_ok in H. destruct H as (gs0 & s4 & H4 & H).
    apply pret_ok in H. destruct H as [-> _]. constructor; eauto.
    exists f, s, base, s0, m, s0, s1. split; auto. split; auto. eapply inScope_child; eauto.
Qed.

(* the compiled schemas of a oneOf: each comes from one branch, merged alone *)
Lemma compileBranches_shape : forall l i s es s', compileBranches PE i l s = Ok (es, s') ->
  (List.length es <= List.length l)%nat /\
  (List.length es = List.length l -> Forall2 (fun n e => exists t j, compiledAs PE t n ("oneOf/" ++ itoa j) e) l es).
Proof.
  induction l as [|n l IH]; intros i s es s' H; cbn [compileBranches] in H.
  - apply pret_ok in H. destruct H as [-> _]. split; auto.
  - apply pbind_ok in H. destruct H as (c & s0 & H0 & H). destruct c as [c|m].
    + apply pbind_ok in H. destruct H as (es0 & s1 & H1 & H). apply pret_ok in H. destruct H as [-> _].
      apply IH in H1. destruct H1 as [L F]. apply compileNode_shape in H0. cbn [List.length]. split; [lia|].
      intros HL. constructor; [eauto|]. apply F. lia.
    + apply pbind_ok in H. destruct H as (u & s1 & H1 & H). apply IH in H. destruct H as [L F]. cbn [List.length].
      split; [lia|]. intros HL. lia.
Qed.
Lemma mergeEach_shape : forall f l s ms s', mergeEach (merge PE f) l s = Ok (ms, s') ->
  Forall2 (fun n m => exists s1 s2, merge PE f [n] s1 = Ok (m, s2)) l ms.
Proof.
  induction l as [|n l IH]; intros s ms s' H; cbn [mergeEach] in H.
  - apply pret_ok in H. destruct H as [-> _]. constructor.
  - apply pbind_ok in H. destruct H as (m & s0 & H0 & H). apply pbind_ok in H. destruct H as (ms0 & s1 & H1 & H).
    apply pret_ok in H. destruct H as [-> _]. constructor; eauto.
Qed.
Lemma parseCombination_shape : forall f n s g s', parseCombination PE (parseF PE f false) (merge PE f) n s = Ok (Good g, s') ->
  let one := match get_or (sOneOf n) [] with [] => false | _ => true end in
  exists gs, Forall2 (branchOf PE one n) (if one then get_or (sOneOf n) [] else get_or (sAnyOf n) []) gs /\
  match get_or (sOneOf n) [] with
  | _ :: _ :: _ => exists ms es s1 s2 s3 s4, mergeEach (merge PE f) (get_or (sOneOf n) []) s1 = Ok (ms, s2) /\
                     compileBranches PE 0 ms s3 = Ok (es, s4) /\ g = GConstrained (GComb gs) [COneOf es]
  | _ => gs = [g] \/ (g = GComb gs /\ exists a b r, gs = a :: b :: r)
  end.
Proof.
  intros f n s g s' H. unfold parseCombination in H. cbv zeta in H |- *.
  apply pbind_ok in H. destruct H as (gs & s0 & H0 & H). apply parseBranches_shape in H0.
  exists gs. split; [exact H0|].
  assert (R : (match gs with [g] => good g | [] => bad "no branch" | _ => good (GComb gs) end) s0 = Ok (Good g, s') ->
     gs = [g] \/ (g = GComb gs /\ exists a b r, gs = a :: b :: r)).
  { destruct gs as [|a [|b r]]; intros X.
    - apply bad_ok in X; tauto.
    - apply good_ok in X. destruct X as [-> _]. auto.
    - apply good_ok in X. destruct X as [-> _]. right. eauto. }
  destruct (get_or (sOneOf n) []) as [|x [|y z]]; auto.
  apply pbind_ok in H. destruct H as (ms & s1 & H1 & H). apply pbind_ok in H. destruct H as (es & s2 & H2 & H).
  apply good_ok in H. destruct H as [-> _]. exists ms, es, s0, s1, s1, s2. auto.
Qed.

(* ------------------------------------------------------------------ if *)
Lemma parseIfBody_shape : forall f field parent body s o s', parseIfBody PE (parseF PE f false) (merge PE f) field parent body s = Ok (o, s') ->
  ifBranch PE parent body o.
Proof.
  intros f field parent body s o s' H. unfold parseIfBody in H. destruct body as [b|]; [|apply pret_ok in H; tauto].
  apply pbind_ok in H. destruct H as (m & s0 & H0 & H). apply pbind_ok in H. destruct H as (r & s1 & H1 & H).
  exists f, s, m, s0. split; auto. destruct r as [g|w].
  - apply pret_ok in H. destruct H as [-> _]. eapply inScope_accepted; eauto.
  - apply pbind_ok in H. destruct H as (u & s2 & H2 & H). apply pret_ok in H. destruct H as [-> _].
    apply inScope_ok in H1. destruct H1 as (t1 & t2 & H1). exists f, t1, t2, w. exact H1.
Qed.
Lemma compileIf_shape : forall f n field st s k s', compileIf PE (parseF PE f false) (merge PE f) n field st s = Ok (Good k, s') ->
  exists c, ifIf st = Some c /\ compiledAs PE s c (pPath s ++ "/" ++ field) (fst k) /\
    ifBranch PE n (ifThen st) (fst (snd k)) /\ ifBranch PE n (ifElse st) (snd (snd k)) /\ (ifThen st <> None \/ ifElse st <> None).
Proof.
  intros f n field st s k s' H. unfold compileIf in H. destruct (ifIf st) as [c|]; [|apply bad_ok in H; tauto].
  exists c. split; auto.
  assert (X : (let* s := pget in
          let* k := compileNode PE c (pPath s ++ "/" ++ field) in
          match k with
          | Bad e => bad e
          | Good eff =>
              let* t := parseIfBody PE (parseF PE f false) (merge PE f) "/then" n (ifThen st) in
              let* e := parseIfBody PE (parseF PE f false) (merge PE f) "/else" n (ifElse st) in
              good (eff, (t, e))
          end) s = Ok (Good k, s') /\ (ifThen st <> None \/ ifElse st <> None)).
  { destruct (ifThen st), (ifElse st); split; auto; try (left; discriminate); try (right; discriminate); apply bad_ok in H; tauto. }
  clear H. destruct X as [H HN].
  apply pbind_ok in H. destruct H as (a & s0 & H0 & H). apply pget_ok in H0. destruct H0 as [-> ->].
  apply pbind_ok in H. destruct H as (e & s0 & H0 & H). destruct e as [eff|m]; [|apply bad_ok in H; tauto].
  apply pbind_ok in H. destruct H as (t & s1 & H1 & H). apply pbind_ok in H. destruct H as (e & s2 & H2 & H).
  apply good_ok in H. destruct H as [-> _]. cbn [fst snd]. apply compileNode_shape in H0. apply parseIfBody_shape in H1, H2. auto.
Qed.
End Shape.
