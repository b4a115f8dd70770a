(* Proof behind C47: a value generated for a schema of the fragment, parsed without errors, is valid. *)
From Coq Require Import ZArith Reals List String Bool Lia.
From Flocq Require Import Core BinarySingleNaN.
From Verif Require Import Base Float64 Json Schema Util Rand Options Number Gen GenFacts GenInv GenValues.
From Verif Require Import SpecMerge MergeFacts MergeProps MergeValid MergeSound.
From Verif Require Import PState RefPath Merge NotMerge Parse PFacts ParseKeep SpecNumber SpecSchema SpecRun SpecParse ParseShape ValueProps ValueTypes.
From Verif Require Import NumberThm NumberProps SpecFragment P_Parse.
From Verif Require NumberGrain.
From Verif Require Import SpecNegate.
From Verif Require SpecRefs NotValues NotKeep NotSound.
Import ListNotations.
Open Scope string_scope.
Open Scope Z_scope.

(* ------------------------------------------------------------------ validity, group by group *)
Definition objPart (mt : string -> string -> Prop) (holds : schemaNode -> json -> Prop) (n : schemaNode) (v : json) : Prop := forall m, v = JObj m ->
  present (everyMember (fun k c => forall x, assoc k m = Some x -> holds c x)) (sProperties n) /\
  present (everyMember (fun p c => forall k x, assoc k m = Some x -> mt p k -> holds c x)) (sPatternProperties n) /\
  present (fun d => forall k x, assoc k m = Some x -> ~ In k (keys (get_or (sProperties n) [])) ->
             (forall p, In p (keys (get_or (sPatternProperties n) [])) -> ~ mt p k) ->
             nofFalse d = false /\ present (fun c => holds c x) (nofSchema d)) (sAdditionalProperties n).
Definition arrPart (holds : schemaNode -> json -> Prop) (n : schemaNode) (v : json) : Prop := forall l, v = JArr l ->
  present (fun ns => positions holds ns l) (sPrefixItems n) /\
  present (fun d =>
    (sPrefixItems n = None -> present (fun ns => positions holds ns l) (itNodes d)) /\
    (itDisallow d = true -> skipn (tupleLength (sPrefixItems n) (sItems n)) l = []) /\
    present (fun c => forall x, In x (skipn (tupleLength (sPrefixItems n) (sItems n)) l) -> holds c x) (itNode d)) (sItems n) /\
  present (fun d => present (fun it => itNode it = None \/ get_or (itNodes it) [] <> []) (sItems n) ->
    (nofFalse d = true -> skipn (tupleLength (sPrefixItems n) (sItems n)) l = []) /\
    present (fun c => forall x, In x (skipn (tupleLength (sPrefixItems n) (sItems n)) l) -> holds c x) (nofSchema d)) (sAdditionalItems n) /\
  present (fun c => atLeast (holds c) (get_or (sMinContains n) 1) l /\
                    forall k, sMaxContains n = Some k -> ~ atLeast (holds c) (k + 1) l) (sContains n).

Lemma valid_split : forall mt fm rf n v, sRef n = None -> sAllOf n = None -> sAnyOf n = None -> sOneOf n = None -> sNot n = None -> sIf n = None ->
  okFlat mt fm n v -> objPart mt (valid mt fm rf) n v -> arrPart (valid mt fm rf) n v -> valid mt fm rf n v.
Proof.
  intros mt fm rf n v H0 H1 H2 H3 H4 H5 F O A. unfold objPart in O. unfold arrPart in A. destruct n. cbn in H0, H1, H2, H3, H4, H5, O, A.
  subst. cbn [valid]. split; [exact F|]. split; [exact O|]. split; [exact A|]. cbn [present]. auto 10.
Qed.
Lemma okType_names : forall T t v, In t (typeNames T) -> hasType t v -> okType T v.
Proof.
  intros [[x [ts|]]|] t v HI HT; cbn in *; auto.
  - eauto.
  - destruct HI as [<-|[]]. auto.
Qed.
Lemma number_one : forall v x y, numberValue v x -> numberValue v y -> x = y.
Proof. intros v x y H1 H2. destruct v; cbn in *; try tauto; try congruence. destruct H1, H2; congruence. Qed.

(* ------------------------------------------------------------------ the parser, without errors *)
Section Clean.
Variable PE : penv.

Lemma node_clean : forall fuel n s g s', sConstraints n = None -> parseNode PE fuel n s = Ok (Good g, s') ->
  pDepth s + 1 <= pxMaxDepth PE /\
  exists f s1 s2, stepF PE f n s1 = Ok (Good g, s2) /\ pDepth s1 = pDepth s + 1 /\ pDepth s1 <= pDeep s1 /\ exists l, pErrs s' = (l ++ pErrs s2)%list.
Proof.
  intros fuel n s g s' HC H. unfold parseNode in H. destruct fuel as [|f]; [discriminate|].
  cbn [parseF] in H. unfold nodeStep in H.
  apply pbind_ok in H. destruct H as (a & s0 & H0 & H). apply pget_ok in H0. destruct H0 as [-> ->].
  apply pbind_ok in H. destruct H as (u & s0 & H0 & H). apply pmod_ok in H0. subst s0.
  apply pbind_ok in H. destruct H as (r1 & s3 & H0 & H).
  apply pbind_ok in H. destruct H as (a & s4 & H1 & H). apply pget_ok in H1. destruct H1 as [-> ->].
  apply pbind_ok in H. destruct H as (a & s5 & H1 & H). apply pret_ok in H. destruct H as [<- ->]. apply pmod_ok in H1. subst s5.
  destruct (Z.ltb_spec (pxMaxDepth PE) (pDepth s + 1)).
  - unfold bad in H0. apply pret_ok in H0. destruct H0 as [H0 _]. discriminate.
  - split; [lia|].
    apply pbind_ok in H0. destruct H0 as (a' & s0 & H2 & H0). apply pmod_ok in H2. subst s0.
    apply pbind_ok in H0. destruct H0 as (r0 & s2 & H2 & H0).
    destruct f as [|f']; [discriminate|]. cbn [parseF] in H2.
    assert (K : keeps PE s2 s3).
    { revert H0. match goal with |- ?m s2 = _ -> _ => assert (S : stable PE m) by stab end. apply S. }
    assert (r0 = Good g).
    { apply pbind_ok in H0. destruct H0 as (x1 & y1 & H3 & H0).
      apply pbind_ok in H0. destruct H0 as (x2 & y2 & H4 & H0).
      apply pbind_ok in H0. destruct H0 as (x3 & y3 & H5 & H0). rewrite HC in H0. apply pret_ok in H0. destruct H0. auto. }
    subst r0. exists f', (withDeep (Z.max (pDeep s) (pDepth s + 1)) (withDepth (pDepth s + 1) s)), s2.
    split; [exact H2|]. split; [reflexivity|]. split; [cbn; lia|]. destruct (kErrs _ _ _ K) as [l Hl]. exists l. exact Hl.
Qed.

Variable kid : schemaNode -> Prop.
Variable Q : schemaNode -> gen -> Prop.
Variable d : Z.
Hypothesis HQ : forall c f s g s', kid c -> parseNode PE f c s = Ok (Good g, s') -> pErrs s' = [] -> pDepth s + d <= pxMaxDepth PE -> Q c g.
Hypothesis Hd : forall c, kid c -> 1 <= d.

Lemma errs_back : forall s s', keeps PE s s' -> pErrs s' = [] -> pErrs s = [].
Proof. intros s s' K E. destruct (kErrs _ _ _ K) as [l Hl]. rewrite E in Hl. symmetry in Hl. apply app_eq_nil in Hl. tauto. Qed.

Lemma scope_clean : forall f sc n srcs s r s', kid n -> inScope PE (parseF PE f false) sc n srcs s = Ok (r, s') ->
  pErrs s' = [] -> pDepth s + d <= pxMaxDepth PE -> exists g, r = Good g /\ Q n g.
Proof.
  intros f sc n srcs s r s' HK H HE HD. unfold inScope in H.
  apply pbind_ok in H. destruct H as (a & s0 & H0 & H). apply pmod_ok in H0. subst s0.
  apply pbind_ok in H. destruct H as (k & s1 & H1 & H). apply pushSources_keeps in H1. destruct H1 as (pushed & _ & _ & K1).
  apply pbind_ok in H. destruct H as (r0 & s2 & H2 & H).
  apply pbind_ok in H. destruct H as (a3 & s3 & H3 & H). apply popMany_ok in H3. subst s3.
  apply pbind_ok in H. destruct H as (a4 & s4 & H4 & H). apply pmod_ok in H4. subst s4.
  apply pret_ok in H. destruct H as [-> ->].
  assert (D1 : pDepth s1 = pDepth s) by (apply kDepth in K1; exact K1).
  change (pErrs s2 = []) in HE. change (parseNode PE f n s1 = Ok (r0, s2)) in H2.
  destruct r0 as [g|m].
  - exists g. split; auto. eapply HQ; eauto. lia.
  - exfalso. pose proof (Hd _ HK). apply C30_reported_partial in H2; [|lia]. destruct H2 as [t Ht]. rewrite HE in Ht. exact Ht.
Qed.

Lemma props_clean : forall f l s gs s', (forall k c, In (k, c) l -> kid c) -> parseProps PE (parseF PE f false) l s = Ok (gs, s') ->
  pErrs s' = [] -> pDepth s + d <= pxMaxDepth PE ->
  Forall2 (fun kn kg => fst kg = fst kn /\ Q (snd kn) (snd kg)) l gs.
Proof.
  induction l as [|[k n] r IH]; intros s gs s' HK H HE HD; cbn [parseProps] in H.
  - apply pret_ok in H. destruct H as [-> ->]. constructor.
  - apply pbind_ok in H. destruct H as (g & s0 & H0 & H). apply pbind_ok in H. destruct H as (gs0 & s1 & H1 & H).
    apply pret_ok in H. destruct H as [-> ->].
    assert (K0 : keeps PE s s0) by (eapply st_inScope; [|exact H0]; intros; apply st_parseF).
    assert (K1 : keeps PE s0 s1) by (eapply st_parseProps; [|exact H1]; intros; apply st_parseF).
    constructor.
    + apply scope_clean in H0; [|eapply HK; left; reflexivity|eapply errs_back; eauto|auto]. destruct H0 as (g' & -> & H0). auto.
    + eapply IH; eauto. { intros; eapply HK; right; eauto. } rewrite (kDepth _ _ _ K0). auto.
Qed.
Lemma patterns_clean : forall f l s gs s', (forall k c, In (k, c) l -> kid c) -> parsePatterns PE (parseF PE f false) l s = Ok (gs, s') ->
  pErrs s' = [] -> pDepth s + d <= pxMaxDepth PE ->
  Forall2 (fun kn kg => fst kg = fst kn /\ fst (snd kg) = true /\ Q (snd kn) (snd (snd kg))) l gs.
Proof.
  induction l as [|[k n] r IH]; intros s gs s' HK H HE HD; cbn [parsePatterns] in H.
  - apply pret_ok in H. destruct H as [-> ->]. constructor.
  - apply pbind_ok in H. destruct H as (g & s0 & H0 & H). apply pbind_ok in H. destruct H as (u & s1 & H1 & H).
    apply pbind_ok in H. destruct H as (gs0 & s2 & H2 & H). apply pret_ok in H. destruct H as [-> ->].
    assert (K0 : keeps PE s s0) by (eapply st_inScope; [|exact H0]; intros; apply st_parseF).
    assert (K2 : keeps PE s1 s2) by (eapply st_parsePatterns; [|exact H2]; intros; apply st_parseF).
    pose proof (errs_back _ _ K2 HE) as E1.
    destruct (pxPropRegexOk PE k).
    2:{ exfalso. apply pmod_ok in H1. subst s1. discriminate E1. }
    apply pret_ok in H1. destruct H1 as [_ ->].
    constructor.
    + apply scope_clean in H0; [|eapply HK; left; reflexivity|exact E1|auto]. destruct H0 as (g' & -> & H0). auto.
    + eapply IH; eauto. { intros; eapply HK; right; eauto. } rewrite (kDepth _ _ _ K0). auto.
Qed.
Lemma opt_clean : forall f sc o s r s', (forall c, o = Some c -> kid c) -> optScope PE (parseF PE f false) sc o s = Ok (r, s') ->
  pErrs s' = [] -> pDepth s + d <= pxMaxDepth PE ->
  exists g, r = Good g /\ match o with Some n => exists g', g = Some g' /\ Q n g' | None => g = None end.
Proof.
  intros f sc o s r s' HK H HE HD. unfold optScope in H. destruct o as [n|].
  - apply pbind_ok in H. destruct H as (x & s0 & H0 & H).
    assert (s0 = s') by (destruct x; apply pret_ok in H; destruct H; auto). subst s0.
    apply scope_clean in H0; auto. destruct H0 as (g & -> & HQg). apply pret_ok in H. destruct H as [-> _]. exists (Some g). eauto.
  - apply pret_ok in H. destruct H as [-> _]. eauto.
Qed.
Lemma tuple_clean : forall f l i s r s', (forall c, In c l -> kid c) -> parseTuple PE (parseF PE f false) i l s = Ok (r, s') ->
  pErrs s' = [] -> pDepth s + d <= pxMaxDepth PE -> exists gs, r = Good gs /\ Forall2 Q l gs.
Proof.
  induction l as [|n l IH]; intros i s r s' HK H HE HD; cbn [parseTuple] in H.
  - apply pret_ok in H. destruct H as [-> _]. eauto.
  - apply pbind_ok in H. destruct H as (x & s0 & H0 & H).
    assert (K0 : keeps PE s s0) by (eapply st_inScope; [|exact H0]; intros; apply st_parseF).
    assert (E0 : pErrs s0 = []).
    { destruct x as [g|m].
      - apply pbind_ok in H. destruct H as (y & s1 & H1 & H).
        assert (K1 : keeps PE s0 s1) by (eapply st_parseTuple; [|exact H1]; intros; apply st_parseF).
        assert (s1 = s') by (destruct y; apply pret_ok in H; destruct H; auto). subst s1. eapply errs_back; eauto.
      - apply pret_ok in H. destruct H as [_ ->]. auto. }
    apply scope_clean in H0; [|apply HK; left; auto|auto|auto]. destruct H0 as (g & -> & HQg).
    apply pbind_ok in H. destruct H as (y & s1 & H1 & H).
    assert (s1 = s') by (destruct y; apply pret_ok in H; destruct H; auto). subst s1.
    apply IH in H1; [|intros; apply HK; right; auto|auto|rewrite (kDepth _ _ _ K0); auto].
    destruct H1 as (gs & -> & F). apply pret_ok in H. destruct H as [-> _]. exists (g :: gs). auto.
Qed.

(* an object without patterns *)
(* combinations: every branch, merged with the rest of the node, is parsed *)
Lemma branches_clean : forall f one n l i s gs s',
  (forall sub base m, In sub l -> mergesTo PE [n] base -> mergesTo PE [if one : bool then set_sOneOf None base else set_sAnyOf None base; sub] m -> kid m) ->
  parseBranches PE (parseF PE f false) (merge PE f) one i n l s = Ok (gs, s') -> pErrs s' = [] -> pDepth s + d <= pxMaxDepth PE ->
  Forall2 (fun sub g => exists base m, mergesTo PE [n] base /\ mergesTo PE [if one then set_sOneOf None base else set_sAnyOf None base; sub] m /\ Q m g) l gs.
Proof.
  induction l as [|sub l IH]; intros i s gs s' HK H HE HD; cbn [parseBranches] in H.
  - apply pret_ok in H. destruct H as [-> ->]. constructor.
  - apply pbind_ok in H. destruct H as (base & s0 & H0 & H). cbv zeta in H. apply pbind_ok in H. destruct H as (m & s1 & H1 & H).
    apply pbind_ok in H. destruct H as (g & s2 & H2 & H). apply pbind_ok in H. destruct H as (u & s3 & H3 & H).
    apply pbind_ok in H. destruct H as (gs0 & s4 & H4 & H). apply pret_ok in H. destruct H as [-> ->].
    assert (K0 : keeps PE s s0) by (eapply st_merge; exact H0). assert (K1 : keeps PE s0 s1) by (eapply st_merge; exact H1).
    assert (K2 : keeps PE s1 s2) by (eapply st_inScope; [|exact H2]; intros; apply st_parseF).
    assert (K3 : keeps PE s2 s3) by (revert H3; destruct (isBad g); [eapply st_addErrSub|intros X; apply pret_ok in X; destruct X as [_ ->]; apply keeps_refl]).
    assert (K4 : keeps PE s3 s4) by (eapply (st_parseBranches PE _ _ (fun n => st_parseF PE f false n) (st_merge PE f)); exact H4).
    assert (E3 : pErrs s3 = []) by (eapply errs_back; eauto). assert (E2 : pErrs s2 = []) by (eapply errs_back; eauto).
    assert (E1 : pErrs s1 = []) by (eapply errs_back; eauto). assert (E0 : pErrs s0 = []) by (eapply errs_back; eauto).
    assert (M0 : mergesTo PE [n] base) by (exists f, s, s0; auto).
    assert (M1 : mergesTo PE [if one then set_sOneOf None base else set_sAnyOf None base; sub] m) by (exists f, s0, s1; auto).
    constructor.
    + apply scope_clean in H2; [|eapply HK; [left; reflexivity|exact M0|exact M1]|exact E2|rewrite (kDepth _ _ _ K1), (kDepth _ _ _ K0); exact HD].
      destruct H2 as (g' & -> & H2). exists base, m. auto.
    + eapply IH; eauto. { intros; eapply HK; [right; eauto|eauto|eauto]. }
      rewrite (kDepth _ _ _ K3), (kDepth _ _ _ K2), (kDepth _ _ _ K1), (kDepth _ _ _ K0). exact HD.
Qed.
Lemma object_clean : forall f n s g s',
  (forall c, (exists k, In (k, c) (get_or (sProperties n) [])) \/ (exists p, In (p, c) (get_or (sPatternProperties n) [])) \/ addlNode n = Some c -> kid c) ->
  parseObject PE (parseF PE f false) n s = Ok (Good g, s') -> pErrs s' = [] -> pDepth s + d <= pxMaxDepth PE ->
  exists ps pats add, g = GObject ps pats add (mkObj (addlFalse n) (get_or (sMinProperties n) 0) (get_or (sMaxProperties n) 0) (get_or (sRequired n) [])) /\
  Forall2 (fun kn kg => fst kg = fst kn /\ Q (snd kn) (snd kg)) (get_or (sProperties n) []) ps /\
  Forall2 (fun kn kg => fst kg = fst kn /\ fst (snd kg) = true /\ Q (snd kn) (snd (snd kg))) (get_or (sPatternProperties n) []) pats /\
  match addlNode n with Some sub => exists a, add = Some a /\ Q sub a | None => add = None end.
Proof.
  intros f n s g s' HK H HE HD. unfold parseObject in H.
  repeat (match type of H with (if ?b then bad _ else _) _ = _ => destruct b; [apply bad_ok in H; tauto|] end).
  assert (FA : nofFalse (get_or (sAdditionalProperties n) (mkNOF None false)) = addlFalse n).
  { unfold addlFalse. destruct (sAdditionalProperties n); auto. }
  assert (FN : (if nofFalse (get_or (sAdditionalProperties n) (mkNOF None false)) then None
                else nofSchema (get_or (sAdditionalProperties n) (mkNOF None false))) = addlNode n).
  { unfold addlNode. destruct (sAdditionalProperties n); auto. }
  rewrite FA in *. rewrite FN in H. clear FA FN.
  apply pbind_ok in H. destruct H as (pats & s0 & H9 & H).
  apply pbind_ok in H. destruct H as (ps & s1 & H2 & H).
  apply pbind_ok in H. destruct H as (add & s2 & H3 & H).
  apply good_ok in H. destruct H as [-> ->].
  assert (K0 : keeps PE s s0) by (eapply st_parsePatterns; [|exact H9]; intros; apply st_parseF).
  assert (K1 : keeps PE s0 s1) by (eapply st_parseProps; [|exact H2]; intros; apply st_parseF).
  assert (K2 : keeps PE s1 s2).
  { destruct (addlNode n) as [sub|].
    - apply pbind_ok in H3. destruct H3 as (r & s3 & H3 & H4). apply pret_ok in H4. destruct H4 as [-> ->].
      eapply st_inScope; [|exact H3]; intros; apply st_parseF.
    - apply pret_ok in H3. destruct H3 as [_ ->]. apply keeps_refl. }
  pose proof (errs_back _ _ K2 HE) as E1. pose proof (errs_back _ _ K1 E1) as E0.
  assert (D0 : pDepth s0 + d <= pxMaxDepth PE) by (rewrite (kDepth _ _ _ K0); auto).
  exists ps, pats, add. split; auto. split; [|split].
  - eapply props_clean; eauto.
  - eapply patterns_clean; eauto.
  - destruct (addlNode n) as [sub|].
    + apply pbind_ok in H3. destruct H3 as (r & s3 & H3 & H4). apply pret_ok in H4. destruct H4 as [-> ->].
      apply scope_clean in H3; auto. 2:{ rewrite (kDepth _ _ _ K1). auto. } destruct H3 as (g & -> & HQg). exists g. auto.
    + apply pret_ok in H3. tauto.
Qed.

(* the schema of the elements made for contains *)
Definition containsAs (n c m : schemaNode) : Prop :=
  match itemsNode n with Some i => mergesTo PE [i; c] m | None => m = c end.
Lemma set_contains : forall m, sContains m = None -> set_sContains None m = m.
Proof. intros [] H. cbn in *. subst. reflexivity. Qed.
Lemma contains_clean : forall f n s r s',
  (forall c m, sContains n = Some c -> itemsFalse n = false /\ (containsAs n c m -> (itemsNode n <> None -> sContains m = None) /\ kid m)) ->
  parseContains PE (parseF PE f false) (merge PE f) n s = Ok (r, s') -> pErrs s' = [] -> pDepth s + d <= pxMaxDepth PE ->
  exists ct, r = Good ct /\ match sContains n with Some c => exists a m, ct = Some a /\ containsAs n c m /\ Q m a | None => ct = None end.
Proof.
  intros f n s r s' HK H HE HD. unfold parseContains in H. destruct (sContains n) as [c|] eqn:EC.
  2:{ apply pret_ok in H. destruct H as [-> _]. exists None. auto. }
  apply pbind_ok in H. destruct H as (c' & s5 & H5 & H). pose proof (fun m => proj2 (HK c m eq_refl)) as HM. pose proof (proj1 (HK c c eq_refl)) as HI.
  assert (K5 : keeps PE s5 s') by (eapply st_optScope; [|exact H]; intros; apply st_parseF).
  assert (E5 : pErrs s5 = []) by (eapply errs_back; eauto).
  assert (X : containsAs n c c' /\ pDepth s5 = pDepth s).
  { unfold containsAs in *. unfold itemsNode, itemsFalse in *. destruct (sItems n) as [dt|].
    - rewrite HI in *. destruct (itNode dt) as [i|].
      + apply pbind_ok in H5. destruct H5 as (m & s6 & H6 & H5). apply pret_ok in H5. destruct H5 as [-> ->].
        assert (M : mergesTo PE [i; c] m) by (exists f, s, s6; auto).
        rewrite (set_contains m) by (apply (HM m M); discriminate). split; [exact M|]. apply st_merge in H6. exact (kDepth _ _ _ H6).
      + apply pret_ok in H5. destruct H5 as [-> ->]. auto.
    - apply pret_ok in H5. destruct H5 as [-> ->]. auto. }
  destruct X as [X D5].
  apply opt_clean in H; [|intros c0 Hc; injection Hc as <-; apply (HM c' X)|exact HE|rewrite D5; exact HD].
  destruct H as (g & -> & a & -> & HQa). exists (Some a). split; [reflexivity|]. exists a, c'. auto.
Qed.

(* an array with prefixItems, items and contains only *)
Lemma array_clean : forall f n s g s', sAdditionalItems n = None -> sUnevaluatedItems n = None -> 
  (forall dt, sItems n = Some dt -> get_or (itNodes dt) [] = []) ->
  (forall c, In c (get_or (sPrefixItems n) []) \/ itemsNode n = Some c -> kid c) ->
  (forall c m, sContains n = Some c -> itemsFalse n = false /\ (containsAs n c m -> (itemsNode n <> None -> sContains m = None) /\ kid m)) ->
  parseArray PE (parseF PE f false) (merge PE f) n s = Ok (Good g, s') -> pErrs s' = [] -> pDepth s + d <= pxMaxDepth PE ->
  let mni := get_or (sMinItems n) 0 in let mxi := get_or (sMaxItems n) 0 in
  let minc := minContainsOf n in let tl := prefixLength n in
  let only := itemsFalse n in
  let mn := if only then tl else getInt mni minc in
  let mx := if only then tl else getInt mxi (getInt mni minc + defaultOffset) in
  exists tu it ct,
  g = GArray tu it None ct None (mkArr false (get_or (sUniqueItems n) false) minc mn mx (itemsFalse n)) /\
  Forall2 Q (get_or (sPrefixItems n) []) tu /\
  match itemsNode n with Some c => exists a, it = Some a /\ Q c a | None => it = None end /\
  match sContains n with Some c => exists a m, ct = Some a /\ containsAs n c m /\ Q m a | None => ct = None end.
Proof.
  intros f n s g s' HA HU HI HK HKC H HE HD. unfold parseArray in H. fold (minContainsOf n) in H. fold (prefixLength n) in H.
  repeat (match type of H with (if ?b then bad _ else _) _ = _ => destruct b; [apply bad_ok in H; tauto|] end).
  cbv zeta in H. rewrite HA, HU in H. fold (itemsNode n) in H. fold (itemsFalse n) in H. cbn [optScope] in H.
  rewrite orb_false_r in H.
  assert (TN : tupleNodes n = get_or (sPrefixItems n) []).
  { unfold tupleNodes. destruct (sPrefixItems n) as [[|x r]|]; cbn [get_or]; auto; destruct (sItems n) as [dt|]; auto; now rewrite (HI dt eq_refl). }
  rewrite TN in H.
  apply pbind_ok in H. destruct H as (it & s0 & H0 & H). destruct it as [it|m]; [|apply bad_ok in H; tauto].
  apply pbind_ok in H. destruct H as (ad & s1 & H1 & H). apply pret_ok in H1. destruct H1 as [-> ->].
  apply pbind_ok in H. destruct H as (ct & s2 & H2 & H). destruct ct as [ct|m]; [|apply bad_ok in H; tauto].
  apply pbind_ok in H. destruct H as (tu & s3 & H3 & H). destruct tu as [tu|m]; [|apply bad_ok in H; tauto].
  apply pbind_ok in H. destruct H as (un & s4 & H4 & H). apply pret_ok in H4. destruct H4 as [-> ->].
  apply good_ok in H. destruct H as [-> ->].
  assert (K0 : keeps PE s s0) by (eapply st_optScope; [|exact H0]; intros; apply st_parseF).
  assert (K2 : keeps PE s0 s2) by (eapply st_parseContains; [| |exact H2]; intros; [apply st_parseF|apply st_merge]).
  assert (K3 : keeps PE s2 s3) by (eapply st_parseTuple; [|exact H3]; intros; apply st_parseF).
  pose proof (errs_back _ _ K3 HE) as E2. pose proof (errs_back _ _ K2 E2) as E0.
  assert (D2 : pDepth s2 + d <= pxMaxDepth PE) by (rewrite (kDepth _ _ _ K2), (kDepth _ _ _ K0); auto).
  assert (D0 : pDepth s0 + d <= pxMaxDepth PE) by (rewrite (kDepth _ _ _ K0); auto).
  apply opt_clean in H0; [|intros c Hc; apply HK; auto|auto|auto]. destruct H0 as (it' & E & H0). injection E as <-.
  apply tuple_clean in H3; [|intros c Hc; apply HK; auto|auto|auto]. destruct H3 as (tu' & E & H3). injection E as <-.
  exists tu, it, ct. cbv zeta. split; [reflexivity|]. split; auto. split; auto.
  apply contains_clean in H2; auto. destruct H2 as (ct' & E & H2). injection E as <-. exact H2.
Qed.
End Clean.

(* ------------------------------------------------------------------ the generator *)
(* all the parts of a generator, at any path *)
Definition inner (fine : gen -> Prop) (g : gen) : Prop := forall st h, SpecRefs.part st g h -> fine h.
Section Gen.
Variable PE : penv.
Variable GE : env.
Variable mt fm : string -> string -> Prop.
Hypothesis HO : smallOptions (eOpts GE).
Variable holds : schemaNode -> json -> Prop.   (* what is shown of the values of sub-schemas *)
Variable calm : gst -> gst -> Prop.            (* the runs for which it is shown *)
Hypothesis Hcut : forall a b, calm a b -> ~ emitted EvCutoff a b.
Hypothesis Hwide : forall a b a' b', calm a b -> after a a' -> after b' b -> calm a' b'.
Variable rf : string -> json -> Prop.
Hypothesis Hholds : forall c v, holds c v -> valid mt fm rf c v.
Variable trying : bool.
Hypothesis Hsame : trying = true -> forall a b, calm a b -> ~ emitted EvUniqueFail a b.
Hypothesis Hjoin : forall l m c v, mergesTo PE l m -> canMerge l -> holds m v -> In c l -> holds c v.
Variable fine : gen -> Prop.                   (* what is known of generators *)
Hypothesis Hfine : forall g, fine g -> inner fine g.

Definition Q (c : schemaNode) (g : gen) : Prop :=
  forall st v st', yields GE g st v st' -> calm st st' -> holds c v.
Definition QF (c : schemaNode) (g : gen) : Prop := fine g -> Q c g.
Lemma made_valid : forall c g x st st', Q c g -> madeBy GE g x st st' -> calm st st' -> holds c x.
Proof. intros c g x st st' HQ (a & b & Y & A & B) N. eapply HQ; [exact Y|]. eapply Hwide; eauto. Qed.

(* equal values of a generator are written alike *)
Definition sameText (a : gen) : Prop :=
  forall st x st1 st2 y st3, yields GE a st x st1 -> yields GE a st2 y st3 -> jeq x y -> marshal x = marshal y.

Lemma positions_app : forall A (R : A -> json -> Prop) l tv r, Forall2 R l tv -> positions R l (tv ++ r)%list.
Proof. intros A R l tv r F. induction F; simpl; auto. Qed.
Lemma atLeast_app_l : forall (R : json -> Prop) k a b, atLeast R k b -> atLeast R k (a ++ b)%list.
Proof. induction a; intros; simpl; auto. apply al_skip. auto. Qed.
Lemma atLeast_all : forall (R : json -> Prop) a b k, (forall x, In x a -> R x) -> k <= Z.of_nat (List.length a) -> atLeast R k (a ++ b)%list.
Proof.
  induction a as [|x a IH]; intros b k H L; simpl in *.
  - apply al_done. lia.
  - apply al_take; auto. apply IH; auto. lia.
Qed.

Lemma array_values : forall n tu it ct st v st', smallSizes n ->
  (sUniqueItems n = Some true -> trying = true /\ get_or (sPrefixItems n) [] = [] /\ sContains n = None /\ exists c, itemsNode n = Some c /\ (writtenAlike mt fm rf c \/ numbersAlone c)) ->
  (forall c a, itemsNode n = Some c -> it = Some a -> numbersAlone c -> sameText a) ->
  sMaxContains n = None -> sAdditionalItems n = None -> (forall c, sContains n = Some c -> itemsFalse n = false) ->
  (forall dt, sItems n = Some dt -> get_or (itNodes dt) [] = []) ->
  Forall2 Q (get_or (sPrefixItems n) []) tu ->
  match itemsNode n with Some c => exists a, it = Some a /\ Q c a | None => it = None end ->
  match sContains n with Some c => exists a, ct = Some a /\ Q c a /\ forall i, itemsNode n = Some i -> Q i a | None => ct = None end ->
  yields GE (GArray tu it None ct None
    (mkArr false (get_or (sUniqueItems n) false) (minContainsOf n)
       (if itemsFalse n then prefixLength n else getInt (get_or (sMinItems n) 0) (minContainsOf n))
       (if itemsFalse n then prefixLength n else getInt (get_or (sMaxItems n) 0) (getInt (get_or (sMinItems n) 0) (minContainsOf n) + defaultOffset))
       (itemsFalse n))) st v st' ->
  calm st st' ->
  exists l, v = JArr l /\ arrPart holds n v /\ (sUniqueItems n = Some true -> distinct l).
Proof.
  intros n tu it ct st v st' HS HU HST HX HAd HC HI F1 F2 F3 H NC.
  apply yields_step in H. destruct H as (k & H). cbn [genStep] in H.
  assert (Hminc : 0 <= minContainsOf n < 2 ^ 60).
  { unfold minContainsOf. pose proof (small_get n (sMinContains n) HS ltac:(simpl; tauto)).
    destruct ((get_or (sMinContains n) 0 =? 0) && is_some (sContains n)); lia. }
  pose proof (small_get n (sMinItems n) HS ltac:(simpl; tauto)) as Hmni.
  pose proof (small_get n (sMaxItems n) HS ltac:(simpl; tauto)) as Hmxi.
  assert (O1 : 0 <= oDefaultArrayMinItems (eOpts GE) < 2 ^ 60) by (apply HO; simpl; tauto).
  assert (O2 : 0 <= oDefaultArrayMaxItems (eOpts GE) < 2 ^ 60) by (apply HO; simpl; tauto).
  set (cf := mkArr _ _ _ _ _ _) in *.
  assert (Hct : arrContains ct cf = match sContains n with Some _ => minContainsOf n | None => 0 end).
  { unfold arrContains, cf. cbn [aMinContains]. destruct (sContains n) as [c|] eqn:EC.
    - destruct F3 as (a & -> & _ & _). unfold minContainsOf in *. rewrite EC in *. cbn [is_some] in *. rewrite andb_true_r in *.
      unfold getInt. destruct (Z.eqb_spec (get_or (sMinContains n) 0) 0); auto. destruct (Z.eqb_spec (get_or (sMinContains n) 0) 0); auto. congruence.
    - subst ct. reflexivity. }
  assert (Hpre : 0 <= prefixLength n < 2 ^ 60) by (destruct HS as (_ & HS & _); unfold prefixLength; lia).
  assert (HXX : arrMax GE cf < 2 ^ 63).
  { assert (D : defaultOffset = 10) by reflexivity.
    assert (K1 : 0 <= aMinItems cf < 2 ^ 60).
    { unfold cf. cbn [aMinItems]. destruct (itemsFalse n); [lia|].
      destruct (getInt_cases (get_or (sMinItems n) 0) (minContainsOf n)) as [[-> _]|[-> _]]; lia. }
    assert (K2 : 0 <= aMaxItems cf < 2 ^ 61).
    { unfold cf. cbn [aMaxItems]. destruct (itemsFalse n); [lia|].
      match goal with |- context [getInt ?a ?b] => destruct (getInt_cases a b) as [[-> _]|[-> _]] end; [lia|].
      destruct (getInt_cases (get_or (sMinItems n) 0) (minContainsOf n)) as [[-> _]|[-> _]]; lia. }
    unfold arrMax, arrMin.
    destruct (getInt_cases (aMinItems cf) (oDefaultArrayMinItems (eOpts GE))) as [[-> _]|[-> _]];
    destruct (getInt_cases (aMaxItems cf) (oDefaultArrayMaxItems (eOpts GE))) as [[-> _]|[-> _]];
    match goal with |- (if ?b then _ else _) < _ => destruct b end; lia. }
  eapply genArray_ok in H; [|apply fwd_generate|rewrite Hct; destruct (sContains n); lia|exact (proj1 Hminc)|exact HXX].
  destruct H as [(_ & H & _)|(tv & cv & rv & s1 & s2 & -> & _ & _ & _ & T & H)]; [exfalso; exact (Hcut _ _ NC H)|].
  eexists. split; [reflexivity|].
  assert (FV : Forall2 holds (get_or (sPrefixItems n) []) tv).
  { clear - F1 T NC Hwide. revert tv T. induction F1; intros tv T; inversion T; subst; constructor; auto.
    eapply made_valid; eauto. eapply prod_made; eauto. }
  assert (LT : List.length tv = List.length (get_or (sPrefixItems n) [])) by (symmetry; eapply Forall2_len; eauto).
  assert (TL : tupleLength (sPrefixItems n) (sItems n) = List.length tv).
  { rewrite LT. unfold tupleLength. destruct (sPrefixItems n); auto. destruct (sItems n) as [dt|]; auto. rewrite (HI dt eq_refl). reflexivity. }
  assert (SK : skipn (List.length tv) (tv ++ cv ++ rv)%list = (cv ++ rv)%list).
  { rewrite skipn_app, skipn_all, Nat.sub_diag. reflexivity. }
  change (aDisallowAdditional cf) with (itemsFalse n) in H. change (aUnique cf) with (get_or (sUniqueItems n) false) in H.
  assert (UF : get_or (sUniqueItems n) false = true -> ~ emitted EvUniqueFail st st').
  { intros E. apply Hsame; [|exact NC]. destruct (sUniqueItems n) as [[]|]; try discriminate. apply (HU eq_refl). }
  split.
  2:{ intros EU. destruct (HU EU) as (_ & NP & NCt & c & EC & HW). rewrite NP in FV. inversion FV; subst tv. clear FV.
      assert (EF : itemsFalse n = false) by (unfold itemsFalse, itemsNode in *; destruct (sItems n) as [dt|]; [destruct (itDisallow dt); [discriminate|reflexivity]|discriminate]).
      rewrite EF in H. rewrite NCt in F3. subst ct. destruct H as (C & _ & R & _). cbn iota in C. subst cv. rewrite EU in R. cbn [get_or app] in R |- *.
      rewrite EC in F2. destruct F2 as (a & -> & HQa). cbn [fillGen] in R.
      assert (MADE : forall x, In x rv -> madeBy GE a x st st').
      { intros x Hx. destruct (appended_made _ _ _ _ _ _ _ _ R x Hx) as [M|(_ & _ & X)]; [exact M|].
        exfalso. apply UF; [rewrite EU; reflexivity|exact X]. }
      assert (ALL : forall x, In x rv -> holds c x).
      { intros x Hx. destruct (appended_made _ _ _ _ _ _ _ _ R x Hx) as [M|(_ & _ & X)]; [eapply made_valid; eauto|].
        exfalso. apply UF; [rewrite EU; reflexivity|exact X]. }
      assert (D : textsDiffer rv).
      { apply appended_differ in R; [|intros i j x y Hi; destruct i; discriminate]. destruct R as [R|X]; [exact R|].
        exfalso. apply UF; [rewrite EU; reflexivity|exact X]. }
      intros i j x y Hi Hj N E. apply (D i j x y Hi Hj N). apply nth_error_In in Hi as Ii. apply nth_error_In in Hj as Ij.
      destruct HW as [HW|HW].
      2:{ destruct (MADE x Ii) as (a1 & b1 & Y1 & _). destruct (MADE y Ij) as (a2 & b2 & Y2 & _). exact (HST c a EC eq_refl HW _ _ _ _ _ _ Y1 Y2 E). }
      apply HW; [apply Hholds, ALL; eapply nth_error_In; eauto|apply Hholds, ALL; eapply nth_error_In; eauto|exact E]. }
  intros l El. injection El as <-. rewrite TL, SK.
  split. { destruct (sPrefixItems n) as [ns|]; cbn [present get_or] in *; auto. apply positions_app. exact FV. }
  split.
  { destruct (sItems n) as [dt|] eqn:EI; cbn [present]; auto. split; [intros _; pose proof (HI dt eq_refl) as NIL; destruct (itNodes dt) as [[|a0 l0]|]; cbn [present get_or positions] in *; [auto|discriminate NIL|auto]|].
    assert (EF : itemsFalse n = itDisallow dt) by (unfold itemsFalse; rewrite EI; auto).
    assert (EN : itemsNode n = if itDisallow dt then None else itNode dt) by (unfold itemsNode; rewrite EI; auto).
    rewrite EF in H. destruct (itDisallow dt).
    - destruct H as [-> ->]. split; auto. destruct (itNode dt); cbn [present]; auto. intros x [].
    - split; [discriminate|]. destruct (itNode dt) as [c|]; cbn [present]; auto. rewrite EN in F2. destruct F2 as (a & -> & HQa).
      destruct H as (C & _ & R & _).
      intros x Hx. apply in_app_or in Hx. destruct Hx as [Hx|Hx].
      + destruct (sContains n) as [c0|]; [|subst ct; cbn iota in C; subst cv; destruct Hx]. destruct F3 as (b & -> & _ & HQb).
        destruct (appended_made _ _ _ _ _ _ _ _ C x Hx) as [M|(X & _ & Y)]; [|exfalso; exact (UF X Y)]. eapply made_valid; [exact (HQb c EN)|exact M|exact NC].
      + destruct (appended_made _ _ _ _ _ _ _ _ R x Hx) as [M|(X & _ & Y)]; [|exfalso; exact (UF X Y)].
        cbn [fillGen] in M. eapply made_valid; eauto. }
  split. { rewrite HAd. cbn [present]. auto. }
  destruct (sContains n) as [c|] eqn:EC; cbn [present]; auto. rewrite HX. split; [|discriminate].
  destruct F3 as (a & -> & HQa & _). assert (EF : itemsFalse n = false) by (apply (HC c); reflexivity).
  rewrite EF in H. destruct H as (C & LC & _). rewrite Hct in LC.
  apply atLeast_app_l. apply atLeast_all.
  - intros x Hx. destruct (appended_made _ _ _ _ _ _ _ _ C x Hx) as [M|(X & _ & Y)]; [|exfalso; exact (UF X Y)]. eapply made_valid; eauto.
  - rewrite LC. unfold minContainsOf. rewrite EC. cbn [is_some]. rewrite andb_true_r.
    destruct (sMinContains n) as [z|]; cbn [get_or]; [destruct (Z.eqb_spec z 0); lia|cbn; lia].
Qed.

Lemma everyMember_intro : forall A (R : string -> A -> Prop) l, (forall k c, In (k, c) l -> R k c) -> everyMember R l.
Proof. induction l as [|[k c] l IH]; simpl; auto. Qed.

Lemma assoc_nodup : forall A (l : list (string * A)) k c, NoDup (keys l) -> In (k, c) l -> assoc k l = Some c.
Proof.
  induction l as [|[k' c'] l IH]; simpl; intros k c ND HI; [tauto|]. inversion ND; subst. destruct HI as [E|HI].
  - injection E as -> ->. now rewrite String.eqb_refl.
  - destruct (String.eqb_spec k k') as [->|]; auto. exfalso. apply H1. unfold keys. apply in_map_iff. exists (k', c). auto.
Qed.

Lemma object_values' : forall n ps pats add st v st', smallSizes n -> keyed GE mt (fun _ => True) n ->
  Forall2 (fun kn kg => fst kg = fst kn /\ Q (snd kn) (snd kg)) (get_or (sProperties n) []) ps ->
  Forall2 (fun kn kg => fst kg = fst kn /\ fst (snd kg) = true /\ Q (snd kn) (snd (snd kg))) (get_or (sPatternProperties n) []) pats ->
  match addlNode n with Some sub => exists a, add = Some a /\ Q sub a | None => add = None end ->
  yields GE (GObject ps pats add (mkObj (addlFalse n) (get_or (sMinProperties n) 0) (get_or (sMaxProperties n) 0) (get_or (sRequired n) []))) st v st' ->
  calm st st' ->
  exists m, v = JObj m /\ objPart mt holds n v.
Proof.
  intros n ps pats add st v st' HS ((NDP & PG & PD & PF) & ND & _ & _ & HM & HR & _ & _) F1 F2 F3 H NC.
  apply yields_step in H. destruct H as (k & H). cbn [genStep] in H.
  set (c := mkObj _ _ _ _) in *.
  assert (O1 : 0 <= oDefaultObjectMinProperties (eOpts GE) < 2 ^ 60) by (apply HO; simpl; tauto).
  assert (O2 : 0 <= oDefaultObjectMaxProperties (eOpts GE) < 2 ^ 60) by (apply HO; simpl; tauto).
  pose proof (small_get n (sMinProperties n) HS ltac:(simpl; tauto)) as Hmn.
  pose proof (small_get n (sMaxProperties n) HS ltac:(simpl; tauto)) as Hmx.
  assert (OK : objOk GE c).
  { unfold objOk, objMax, objMin, c. cbn [bMinProperties bMaxProperties].
    destruct (getInt_cases (get_or (sMinProperties n) 0) (oDefaultObjectMinProperties (eOpts GE))) as [[-> _]|[-> _]];
    destruct (getInt_cases (get_or (sMaxProperties n) 0) (oDefaultObjectMaxProperties (eOpts GE))) as [[-> _]|[-> _]];
    match goal with |- context [?a <? ?b] => destruct (Z.ltb_spec a b) end; lia. }
  eapply genObject_ok in H; [|apply fwd_generate|exact OK].
  destruct H as [(_ & H & _)|(m & -> & [NDm HG] & _)]; [exfalso; exact (Hcut _ _ NC H)|].
  exists m. split; auto. intros m' Em. injection Em as <-.
  assert (PP : forall re b g, In (re, (b, g)) pats -> exists cc, In (re, cc) (get_or (sPatternProperties n) []) /\ In re (keys (get_or (sPatternProperties n) [])) /\ b = true /\ Q cc g).
  { intros re b g HI. destruct (Forall2_In_r _ _ _ _ _ _ F2 HI) as ([re' cc] & I & E1 & E2 & E3). cbn [fst snd] in *. subst re' b.
    exists cc. split; [exact I|]. split; [apply in_map_iff; exists (re, cc); auto|]. auto. }
  assert (PN : forall p, pats = [] -> ~ In p (keys (get_or (sPatternProperties n) []))).
  { intros p E. rewrite E in F2. inversion F2. intros []. }
  assert (PNE : pats <> [] -> get_or (sPatternProperties n) [] <> []).
  { intros N E. apply N. rewrite E in F2. inversion F2. auto. }
  assert (FILL : forall p i, In p (keys (get_or (sPatternProperties n) [])) -> 0 <= i ->
     (NoDup (bRequired c) -> Z.of_nat (List.length (bRequired c)) < objMin GE c) -> addlFalse n = false /\ ~ mt p ("min_filler_" ++ itoa i)).
  { intros p i Hp Hi Hq. assert (NE : get_or (sPatternProperties n) [] <> []) by (intros E; rewrite E in Hp; destruct Hp).
    destruct (PF NE) as [(NDr & M1 & M2)|[AF M]]; [exfalso|split; auto].
    specialize (Hq NDr). unfold objMin, c in Hq. cbn [bRequired bMinProperties] in Hq.
    destruct (getInt_cases (get_or (sMinProperties n) 0) (oDefaultObjectMinProperties (eOpts GE))) as [[X _]|[X _]]; rewrite X in Hq; lia. }
  assert (DECL : forall kk x, assoc kk m = Some x -> forall g, assoc kk ps = Some g -> exists cc, assoc kk (get_or (sProperties n) []) = Some cc /\ Q cc g).
  { intros kk x _ g Hg. pose proof (assoc_Forall2 _ _ _ _ _ kk F1) as A. rewrite Hg in A. exact A. }
  split; [|split].
  - destruct (sProperties n) as [props|] eqn:EP; cbn [present get_or] in *; auto.
    apply everyMember_intro. intros kk cc Hin x Hx. pose proof (assoc_nodup _ _ _ _ ND Hin) as Ha.
    assert (NM : ~ madeUpName kk) by (apply HM; right; unfold keys; apply in_map_iff; exists (kk, cc); auto).
    pose proof (assoc_In _ _ _ _ Hx) as HI. apply HG in HI. destruct HI.
    + destruct (DECL _ _ Hx _ H) as (c2 & E2 & HQ2). assert (c2 = cc) by congruence. subst c2.
      eapply made_valid; eauto. eapply prod_made; eauto.
    + pose proof (assoc_Forall2 _ _ _ _ _ kk F1) as A. rewrite H0 in A. congruence.
    + exfalso. apply PP in H. destruct H as (c2 & _ & I2 & _). destruct (PG _ _ _ I2 H0) as (_ & X & _). apply X. right.
      unfold keys. apply in_map_iff. exists (kk, cc). auto.
    + apply PP in H. destruct H as (c2 & _ & _ & X & _). discriminate X.
    + exfalso. apply NM. exists i. auto.
    + exfalso. apply NM. exists i. auto.
    + exfalso. apply NM. exists i. auto.
  - assert (IN : forall p cc, In (p, cc) (get_or (sPatternProperties n) []) -> forall kk x, assoc kk m = Some x -> mt p kk -> holds cc x).
    { intros p cc Hin kk x Hx Hm.
      assert (Hp : In p (keys (get_or (sPatternProperties n) []))) by (apply in_map_iff; exists (p, cc); auto).
      pose proof (assoc_In _ _ _ _ Hx) as HI. apply HG in HI. destruct HI.
      + exfalso. destruct (DECL _ _ Hx _ H) as (c2 & E2 & _). apply (PD p kk Hp); auto. right. eapply assoc_Some_key; eauto.
      + exfalso. apply (PD p kk Hp); auto.
      + apply PP in H. destruct H as (c2 & I2 & I3 & _ & HQ2). destruct (PG _ _ _ I3 H0) as (_ & _ & U). apply U in Hm; auto. subst re.
        assert (c2 = cc) by (apply (assoc_nodup _ _ _ _ NDP) in I2, Hin; congruence). subst c2. eapply made_valid; eauto. eapply prod_made; eauto.
      + apply PP in H. destruct H as (c2 & _ & _ & X & _). discriminate X.
      + exfalso. eapply PN; eauto.
      + exfalso. eapply PN; eauto.
      + exfalso. destruct (FILL p i Hp H H1) as [_ X]. apply X. subst kk. exact Hm. }
    destruct (sPatternProperties n) as [pl|]; cbn [present get_or] in *; auto.
    apply everyMember_intro. intros p cc Hin kk x Hx Hm. eapply IN; eauto.
  - destruct (sAdditionalProperties n) as [dd|] eqn:EA; cbn [present]; auto. intros kk x Hx Hk Hpat.
    assert (AF : addlFalse n = nofFalse dd) by (unfold addlFalse; rewrite EA; auto).
    assert (AN : addlNode n = if nofFalse dd then None else nofSchema dd) by (unfold addlNode; rewrite EA; auto).
    pose proof (assoc_In _ _ _ _ Hx) as HI. apply HG in HI.
    assert (CASE : forall g, add = Some g -> nofFalse dd = false -> madeBy GE g x st st' -> present (fun c0 => holds c0 x) (nofSchema dd)).
    { intros g Ea Ef M. rewrite AN, Ef in F3. destruct (nofSchema dd) as [c0|]; cbn [present]; auto.
      destruct F3 as (a & E & HQa). rewrite Ea in E. injection E as ->. eapply made_valid; eauto. }
    assert (NONE : add = None -> nofFalse dd = false -> present (fun c0 => holds c0 x) (nofSchema dd)).
    { intros Ea Ef. rewrite AN, Ef in F3. destruct (nofSchema dd) as [c0|]; cbn [present]; auto.
      destruct F3 as (a & E & HQa). rewrite Ea in E. discriminate. }
    destruct HI.
    + destruct (DECL _ _ Hx _ H) as (c2 & E2 & _). exfalso. apply Hk. eapply assoc_Some_key; eauto.
    + exfalso. destruct (HR kk H) as [X|X]; [auto|congruence].
    + exfalso. apply PP in H. destruct H as (c2 & _ & I3 & _). destruct (PG _ _ _ I3 H0) as (Y & _). exact (Hpat _ I3 Y).
    + apply PP in H. destruct H as (c2 & _ & _ & X & _). discriminate X.
    + change (addlFalse n = false) in H1. rewrite AF in H1. split; auto. eapply CASE; eauto. eapply prod_made; eauto.
    + change (addlFalse n = false) in H1. rewrite AF in H1. split; auto.
    + assert (AF' : nofFalse dd = false).
      { destruct H0 as [H0|H0]; [|rewrite <- AF; exact H0]. apply PNE in H0.
        destruct (get_or (sPatternProperties n) []) as [|[p cc] r] eqn:EPP; [congruence|].
        destruct (FILL p i) as [X _]; auto. { left. reflexivity. } rewrite <- AF. exact X. }
      split; auto. destruct add as [g|]; [eapply CASE; eauto; cbn [get_or] in H3; eapply prod_made; eauto|auto].
Qed.

(* what is shown of a value of one type *)
Definition typedOk (t : string) (n : schemaNode) (v : json) : Prop :=
  hasType t v /\ okString mt fm n v /\ okNumber n v /\ okArray n v /\ okObject n v /\ objPart mt holds n v /\ arrPart holds n v.

Ltac vacuous := first [intros ? ?; discriminate | intros ? X; cbn in X; tauto].
Lemma only_null : forall n, typedOk "null" n JNull.
Proof. intros n. unfold typedOk. split; [left; auto|]. split; [vacuous|]. split; [vacuous|]. split; [vacuous|]. split; [vacuous|]. split; vacuous. Qed.
Lemma only_bool : forall n b, typedOk "boolean" n (JBool b).
Proof. intros n b. unfold typedOk. split; [right; left; eauto|]. split; [vacuous|]. split; [vacuous|]. split; [vacuous|]. split; [vacuous|]. split; vacuous. Qed.
Lemma only_string : forall n s, okString mt fm n (JStr s) -> typedOk "string" n (JStr s).
Proof. intros n s H. unfold typedOk. split; [do 4 right; left; eauto|]. split; [auto|]. split; [vacuous|]. split; [vacuous|]. split; [vacuous|]. split; vacuous. Qed.
Lemma number_kind : forall v x, numberValue v x -> (forall s, v <> JStr s) /\ (forall l, v <> JArr l) /\ (forall m, v <> JObj m).
Proof. intros v x H. destruct v; cbn in H; try tauto; split; try split; intros; discriminate. Qed.
Lemma only_number : forall t n v x, numberValue v x -> hasType t v -> okBounds n x -> okMultipleOf n x -> typedOk t n v.
Proof.
  intros t n v x HV HT HB HM. destruct (number_kind v x HV) as (N1 & N2 & N3). unfold typedOk. split; [auto|].
  split. { intros s E. exfalso. exact (N1 s E). }
  split. { intros y Hy. rewrite (number_one v y x Hy HV). auto. }
  split. { intros l E. exfalso. exact (N2 l E). }
  split. { intros m E. exfalso. exact (N3 m E). }
  split; [intros m E; exfalso; exact (N3 m E)|intros l E; exfalso; exact (N2 l E)].
Qed.
Lemma only_array : forall n l, okArray n (JArr l) -> arrPart holds n (JArr l) -> typedOk "array" n (JArr l).
Proof. intros n l H HA. unfold typedOk. split; [do 5 right; left; eauto|]. split; [vacuous|]. split; [vacuous|]. split; [auto|]. split; [vacuous|]. split; [vacuous|auto]. Qed.
Lemma only_object : forall n m, okObject n (JObj m) -> objPart mt holds n (JObj m) -> typedOk "object" n (JObj m).
Proof. intros n l H HA. unfold typedOk. split; [do 6 right; eauto|]. split; [vacuous|]. split; [vacuous|]. split; [vacuous|]. split; [auto|]. split; [auto|vacuous]. Qed.

Lemma number_made : forall n b g s s' st v st', parseNum n b s = Ok (Good g, s') -> yields GE g st v st' -> exists d, producesNumber n b d v.
Proof.
  intros n b g s s' st v st' H HY. unfold parseNum in H. unfold producesNumber. destruct (parseNumber n b) as [[c|ng]|]; [| |apply bad_ok in H; tauto].
  - apply good_ok in H. destruct H as [-> _]. apply const_value in HY. exists 0. exact HY.
  - apply good_ok in H. destruct H as [-> _]. apply yields_step in HY. destruct HY as (k & HY). cbn [genStep] in HY.
    unfold genNumber in HY. apply bindM_ok in HY. destruct HY as (u & s0 & _ & HY). destruct (numberDraws ng).
    + apply bindM_ok in HY. destruct HY as (d & s1 & _ & HY). apply lift_ok in HY. destruct HY as [HY _]. eauto.
    + apply lift_ok in HY. destruct HY as [HY _]. eauto.
Qed.

(* numbers without multipleOf are never -0, so equal ones are the same *)
Lemma finish_alike : forall g r r', nInt g = true \/ nMul g = fzero -> jeq (numberFinish g r) (numberFinish g r') ->
  numberFinish g r = numberFinish g r'.
Proof.
  intros g r r' HG HJ.
  assert (NV : exists x, numberValue (numberFinish g r) x /\ numberValue (numberFinish g r') x).
  { assert (K : forall q, (exists z, numberFinish g q = JInt z) \/ (exists f, numberFinish g q = JFloat f)).
    { intros q. unfold numberFinish. destruct (is_zero q), (nInt g); eauto. destruct (feqb (nMul g) fzero); eauto. }
    destruct (K r) as [(z & E)|(f & E)]; rewrite E in *; inversion HJ; subst; eauto. }
  clear HJ. destruct NV as (x & V1 & V2). unfold numberFinish in *. destruct (nInt g) eqn:EI.
  - assert (K : forall q, exists z, (if is_zero q then JInt 0 else JInt (int_of_f64 q)) = JInt z) by (intros q; destruct (is_zero q); eauto).
    destruct (K r) as (z & E1), (K r') as (z' & E2). rewrite E1 in *. rewrite E2 in *. cbn [numberValue] in V1, V2.
    f_equal. apply eq_IZR. congruence.
  - destruct HG as [HG|HG]; [discriminate|]. rewrite HG in *. replace (feqb fzero fzero) with true in * by (vm_compute; reflexivity).
    assert (Z0 : forall q : f64, is_zero q = true -> B2R q = 0%R) by (intros [s|s| |s m e b] X; try discriminate X; reflexivity).
    assert (Z1 : forall q : f64, is_finite q = true -> is_zero q = false -> is_finite_strict q = true) by (intros [s|s| |s m e b] X Y; try discriminate; reflexivity).
    assert (Z2 : forall q : f64, is_finite_strict q = true -> B2R q <> 0%R).
    { intros [s|s| |s m e b] X; try discriminate X. unfold B2R. apply F2R_neq_0. destruct s; cbn; discriminate. }
    destruct (is_zero r) eqn:E1, (is_zero r') eqn:E2; cbn [numberValue] in V1, V2.
    + reflexivity.
    + exfalso. destruct V1 as [_ V1], V2 as [F2 V2]. apply (Z2 r'); [auto|]. rewrite <- V2, V1. vm_compute. reflexivity.
    + exfalso. destruct V2 as [_ V2], V1 as [F1 V1]. apply (Z2 r); [auto|]. rewrite <- V1, V2. vm_compute. reflexivity.
    + destruct V1 as [F1 V1], V2 as [F2 V2]. f_equal. apply B2R_inj; [auto|auto|congruence].
Qed.
Lemma numbers_alike : forall c g, numbersAlone c -> accepted PE c g -> sameText g.
Proof.
  intros c g [HP HT] HA.
  assert (X : exists b s s', parseNum c b s = Ok (Good g, s') /\ (b = true \/ sMultipleOf c = None)).
  { destruct HT as [HT|[HT HM]]; (eapply accepted_typed in HA; [|exact HP|exact HT|discriminate]); destruct HA as (f & s & s' & HA); unfold parseType in HA.
    - exists true, s, s'. split; [exact HA|left; reflexivity].
    - exists false, s, s'. split; [exact HA|right; exact HM]. }
  destruct X as (b & s & s' & HN & HB). intros st x st1 st2 y st3 Y1 Y2 HJ. f_equal.
  unfold parseNum in HN. destruct (parseNumber c b) as [[k|ng]|] eqn:EP; [| |apply bad_ok in HN; tauto].
  - apply good_ok in HN. destruct HN as [-> _]. apply const_value in Y1, Y2. congruence.
  - apply good_ok in HN. destruct HN as [-> _]. apply parseNumber_inv in EP. destruct EP as (mn & mx & _ & [[_ E]|[_ E]]); [discriminate|].
    assert (EG : ng = mkNum b mn mx (get_or (sMultipleOf c) fzero)) by congruence.
    assert (HG : nInt ng = true \/ nMul ng = fzero) by (rewrite EG; cbn [nInt nMul]; destruct HB as [HB|HB]; [left; exact HB|right; rewrite HB; exact (eq_refl _)]).
    clear E EG.
    assert (K : forall a v b', yields GE (GNumber ng) a v b' -> exists r, v = numberFinish ng r).
    { intros a v b' HY. apply yields_step in HY. destruct HY as (k & HY). cbn [genStep] in HY.
      unfold genNumber in HY. apply bindM_ok in HY. destruct HY as (u & s0 & _ & HY).
      assert (Z : exists dr, numberGenerate ng dr = Ok v).
      { destruct (numberDraws ng); [apply bindM_ok in HY; destruct HY as (dr & s1 & _ & HY)|]; apply lift_ok in HY; destruct HY as [HY _]; eauto. }
      destruct Z as (dr & Z). unfold numberGenerate in Z. apply bind_ok in Z. destruct Z as (r & _ & Z). exists r. congruence. }
    destruct (K _ _ _ Y1) as (r1 & ->), (K _ _ _ Y2) as (r2 & ->). apply finish_alike; auto.
Qed.

Lemma format_made : forall f st v st', generateFormat GE f st = Ok (v, st') -> exists str, v = JStr str /\
  ((f = "duration" /\ (exists k, 0 <= k <= 90 /\ str = "P" ++ itoa k ++ "D")) \/
   (In f fakerFormats /\ exists d, str = eFormat GE f d) \/ (f <> "duration" /\ ~ In f fakerFormats)).
Proof.
  intros f st v st' H. unfold generateFormat in H. destruct (String.eqb_spec f "duration").
  - stepM H. apply ret_ok in H. destruct H as [-> _]. eexists. split; [reflexivity|]. left. split; auto.
    exists a. split; auto. apply drawInt_ok_range in H0; lia.
  - destruct (mem_string f fakerFormats) eqn:M.
    + stepM H. apply ret_ok in H. destruct H as [-> _]. eexists. split; [reflexivity|]. right. left. split; [now apply mem_string_In|eauto].
    + stepM H. apply ret_ok in H. destruct H as [-> _]. eexists. split; [reflexivity|]. right. right. split; auto.
      intros X. apply mem_string_In in X. congruence.
Qed.

Lemma string_sound : forall n g s s' st v st', textual GE mt fm n -> parseString PE n s = Ok (Good g, s') -> yields GE g st v st' ->
  exists str, v = JStr str /\ okString mt fm n v.
Proof.
  intros n g s s' st v st' HT H HY. pose proof H as H0. apply parseString_shape in H. destruct H as (-> & L1 & L2 & L3 & _).
  apply yields_step in HY. destruct HY as (k & HY). cbn [genStep] in HY. unfold textual in HT.
  assert (NL : is_some (sPattern n) || is_some (sFormat n) = true -> sMinLength n = None /\ sMaxLength n = None).
  { intros E. unfold parseString in H0.
    repeat (match type of H0 with (if ?b then bad _ else _) _ = _ => destruct b eqn:?; [apply bad_ok in H0; tauto|] end).
    rewrite E in *. cbn [andb] in *. destruct (sMinLength n), (sMaxLength n); try discriminate; auto. }
  destruct (sPattern n) as [p|] eqn:EP, (sFormat n) as [f|] eqn:EF; cbn [get_or] in HY; [tauto| | |].
  - destruct HT as [Np HT]. destruct (NL eq_refl) as [N1 N2]. unfold genString in HY. cbn [String.eqb negb] in HY.
    destruct (String.eqb_spec p ""); [contradiction|]. cbn [negb] in HY.
    stepM HY. stepM HY. stepM HY. apply ret_ok in HY. destruct HY as [-> _]. eexists. split; [reflexivity|].
    intros str E. injection E as <-. rewrite N1, N2, EP, EF. split; [split; discriminate|]. split; [|discriminate].
    intros p0 E0. injection E0 as <-. match goal with L : lift _ _ = _ |- _ => apply lift_ok in L; destruct L as [L _] end. eapply HT; eauto.
  - destruct HT as [Nf HT]. destruct (NL eq_refl) as [N1 N2]. unfold genString in HY.
    destruct (String.eqb_spec f ""); [contradiction|]. cbn [negb] in HY. stepM HY. apply format_made in HY.
    destruct HY as (str & -> & HF). exists str. split; auto. intros x E. injection E as <-. rewrite N1, N2, EP, EF.
    split; [split; discriminate|]. split; [discriminate|]. intros f0 E0. injection E0 as <-. apply HT. exact HF.
  - apply genString_ok in HY; auto. destruct HY as (str & -> & R1 & R2). exists str. split; auto.
    intros x E. injection E as <-. rewrite EP, EF. split; [|split; discriminate].
    split; intros b Hb; rewrite Hb in *; cbn [get_or] in *; [lia|]. apply R2. congruence.
Qed.
Lemma hasType_number : forall v x, numberValue v x -> hasType "number" v.
Proof. intros. do 2 right. left. eauto. Qed.
Lemma hasType_integer : forall v x, numberValue v (IZR x) -> hasType "integer" v.
Proof. intros. do 3 right. left. split; auto. exists (IZR x). split; auto. exists x; auto. Qed.

Section Level.
Variable kid : schemaNode -> Prop.
Variable d : Z.
Hypothesis HQ : forall c f s g s', kid c -> parseNode PE f c s = Ok (Good g, s') -> pErrs s' = [] -> pDepth s + d <= pxMaxDepth PE -> QF c g.
Hypothesis H0d : 0 <= d.
Hypothesis Hd : forall c, kid c -> 1 <= d.

Lemma object_parts : forall ps pats add cf (l l' : list (string * schemaNode)) o, inner fine (GObject ps pats add cf) ->
  Forall2 (fun kn kg => fst kg = fst kn /\ QF (snd kn) (snd kg)) l ps ->
  Forall2 (fun kn kg => fst kg = fst kn /\ fst (snd kg) = true /\ QF (snd kn) (snd (snd kg))) l' pats ->
  match o with Some sub => exists a, add = Some a /\ QF sub a | None => add = None end ->
  Forall2 (fun kn kg => fst kg = fst kn /\ Q (snd kn) (snd kg)) l ps /\
  Forall2 (fun kn kg => fst kg = fst kn /\ fst (snd kg) = true /\ Q (snd kn) (snd (snd kg))) l' pats /\
  match o with Some sub => exists a, add = Some a /\ Q sub a | None => add = None end.
Proof.
  intros ps pats add cf l l' o HI F1 F2 F3. split; [|split].
  - assert (X : forall k g, In (k, g) ps -> fine g) by (intros k g I; eapply HI; apply SpecRefs.part_property with (k := k); exact I). clear - F1 X.
    induction F1 as [|kn [k g] l ps [E K] _ IH]; constructor; [split; [exact E|apply K; eapply X; left; reflexivity]|apply IH; intros; eapply X; right; eauto].
  - assert (X : forall k b g, In (k, (b, g)) pats -> fine g) by (intros k b g I; eapply HI; apply SpecRefs.part_pattern with (k := k) (b := b); exact I). clear - F2 X.
    induction F2 as [|kn [k [b g]] l ps (E1 & E2 & K) _ IH]; constructor; [split; [exact E1|split; [exact E2|apply K; eapply X; left; reflexivity]]|apply IH; intros; eapply X; right; eauto].
  - destruct o; auto. destruct F3 as (a & -> & K). exists a. split; auto. apply K. eapply HI. apply SpecRefs.part_additional.
Qed.
Lemma array_parts : forall n tu it ct cf (l : list schemaNode) o o', inner fine (GArray tu it None ct None cf) ->
  Forall2 QF l tu ->
  match o with Some sub => exists a, it = Some a /\ QF sub a | None => it = None end ->
  match o' with Some sub => exists a m, ct = Some a /\ containsAs PE n sub m /\ QF m a | None => ct = None end ->
  Forall2 Q l tu /\
  match o with Some sub => exists a, it = Some a /\ Q sub a | None => it = None end /\
  match o' with Some sub => exists a m, ct = Some a /\ containsAs PE n sub m /\ Q m a | None => ct = None end.
Proof.
  intros n tu it ct cf l o o' HI F1 F2 F3. split; [|split].
  - assert (X : forall g, In g tu -> fine g).
    { intros g I. apply In_nth_error in I. destruct I as [i I]. eapply HI. apply SpecRefs.part_prefix with (i := i). exact I. }
    clear - F1 X. induction F1 as [|n g l ps K _ IH]; constructor; [apply K; apply X; left; reflexivity|apply IH; intros; apply X; right; auto].
  - destruct o; auto. destruct F2 as (a & -> & K). exists a. split; auto. apply K. eapply HI. apply SpecRefs.part_items.
  - destruct o'; auto. destruct F3 as (a & m & -> & J & K). exists a, m. split; [auto|]. split; [exact J|]. apply K. eapply HI. apply SpecRefs.part_contains.
Qed.

Lemma type_sound : forall t n f s g s' st v st', plain n -> unsupported n = false -> smallSizes n -> usesOnly PE GE mt fm rf trying kid t n ->
  pDepth s <= pDeep s -> pDepth s + d <= pxMaxDepth PE ->
  parseType PE (parseF PE f false) (merge PE f) t n s = Ok (Good g, s') -> pErrs s' = [] -> inner fine g ->
  yields GE g st v st' -> calm st st' -> typedOk t n v.
Proof.
  intros t n f s g s' st v st' HP HU HS (HT & T1 & T2 & T3 & T4 & T5) HDp HD H HE HF HY NC.
  assert (ACC : t <> "" -> accepted PE (withType t n) g).
  { intros Nt. apply type_node in H; auto. lia. }
  pose proof (plain_type (Some (mkMT t None)) n HP) as HP'. pose proof (smallSizes_type (Some (mkMT t None)) n HS) as HS'.
  unfold parseType in H.
  destruct (String.eqb_spec t "object") as [->|].
  { specialize (T5 eq_refl). specialize (ACC ltac:(discriminate)). destruct T5 as (A1 & A2 & A3 & A4 & A5 & A6 & A7 & A8).
    pose proof H as H0. eapply object_clean in H; [|exact HQ|exact Hd|exact A8| |]; eauto. destruct H as (ps & pats & add & -> & F1 & F2 & F3).
    destruct (object_parts _ _ _ _ _ _ _ HF F1 F2 F3) as (G1 & G2 & G3). clear F1 F2 F3. rename G1 into F1, G2 into F2, G3 into F3.
    assert (KY : keyed GE mt (fun _ => True) n) by (split; [exact A1|]; repeat (split; auto)).
    destruct (object_values' n ps pats add st v st' HS KY F1 F2 F3 HY NC) as (m & -> & OP).
    apply only_object; auto. intros m' E. injection E as <-.
    pose proof (object_max PE GE (withType "object" n) _ st (JObj m) st' HP' (sType_set _ _) HS' HO A3 A4 ACC HY) as MX.
    destruct MX as [[X _]|(m' & E & ND & [_ MX])]; [discriminate|]. injection E as <-.
    pose proof (object_required PE GE (withType "object" n) _ st (JObj m) st' HP' (sType_set _ _) HS' HO ACC HY) as RQ.
    destruct RQ as [[X _]|(m' & E & RQ)]; [discriminate|]. injection E as <-.
    split; [split|].
    - assert (REACH : NoDup (get_or (sRequired n) []) -> get_or (sMinProperties n) 0 <= Z.of_nat (List.length (get_or (sRequired n) [])) ->
        forall a, sMinProperties n = Some a -> a <= Z.of_nat (List.length m)).
      { intros NDr Hr a Ea. rewrite Ea in Hr. cbn [get_or] in Hr.
        assert (L : (List.length (get_or (sRequired n) []) <= List.length (keys m))%nat) by (apply NoDup_incl_length; [auto|exact RQ]).
        unfold keys in L. rewrite map_length in L. lia. }
      intros a Ea. destruct (addlFalse n) eqn:AF; [destruct (A7 eq_refl) as [NDr Hr]; auto|].
      destruct A1 as (_ & PG & _ & PF).
      assert (CASE : (NoDup (get_or (sRequired n) []) /\ get_or (sMinProperties n) 0 <= Z.of_nat (List.length (get_or (sRequired n) []))) \/
        forall p i, In p (keys (get_or (sPatternProperties n) [])) -> 0 <= i -> ~ mt p ("min_filler_" ++ itoa i)).
      { destruct (get_or (sPatternProperties n) []) as [|q r] eqn:EPP; [right; intros p i []|].
        destruct PF as [(X & Y & _)|[_ X]]; [discriminate|left; auto|right; exact X]. }
      destruct CASE as [[X Y]|NM]; [auto|].
      + assert (NF : forall k, In k (get_or (sRequired n) []) \/ In k (keys (get_or (sProperties n) [])) -> ~ fillerKey k).
        { intros k Hk (i & Hi & Ek). apply (A5 k Hk). exists i. auto. }
        assert (NR : forall re c e k, In (re, c) (get_or (sPatternProperties (withType "object" n)) []) -> eRegen GE re e = Ok k -> ~ fillerKey k).
        { change (sPatternProperties (withType "object" n)) with (sPatternProperties n). intros re c e k HI HR (i & Hi & Ek).
          assert (Hp : In re (keys (get_or (sPatternProperties n) []))) by (apply in_map_iff; exists (re, c); auto).
          destruct (PG _ _ _ Hp HR) as (X & _). apply (NM re i Hp Hi). rewrite <- Ek. exact X. }
        destruct (object_min PE GE (withType "object" n) _ st (JObj m) st' HP' (sType_set _ _) HS' HO AF NF NR ACC HY) as [[X _]|(m' & E & _ & [MN _])];
          [discriminate|]. injection E as <-. apply MN. exact Ea.
    - exact MX.
    - intros l k El Hk. apply RQ. change (sRequired (withType "object" n)) with (sRequired n). rewrite El. exact Hk. }
  destruct (String.eqb_spec t "array") as [->|].
  { specialize (T4 eq_refl). specialize (ACC ltac:(discriminate)). destruct T4 as (A1 & A2 & A3 & A4 & A5 & A6 & A7 & A8 & A9 & A10).
    assert (A5c : forall c m, sContains n = Some c -> itemsFalse n = false /\ (containsAs PE n c m -> (itemsNode n <> None -> sContains m = None) /\ kid m)).
    { intros c m E. destruct (A5 c E) as [X Y]. split; [exact X|]. unfold containsAs. destruct (itemsNode n) as [i|].
      - intros J. destruct Y as [_ Y]. destruct (Y m J). auto.
      - intros ->. split; [intros Z; exfalso; apply Z; reflexivity|exact Y]. }
    assert (HQ' : forall c f s g s', kid c -> parseNode PE f c s = Ok (Good g, s') -> pErrs s' = [] -> pDepth s + d <= pxMaxDepth PE ->
      QF c g /\ (numbersAlone c -> sameText g)).
    { intros c f0 s0 g0 s0' Kc Hc He Hde. split; [eapply HQ; eauto|]. intros NA. apply (numbers_alike c g0 NA). exists f0, s0, s0'. exact Hc. }
    pose proof H as H0. eapply array_clean in H; [|exact HQ'|exact Hd|exact A1|exact A2|exact A8|exact A10|exact A5c| |]; eauto. cbv zeta in H.
    destruct H as (tu & it & ct & -> & F1 & F2 & F3).
    assert (ST : forall c a, itemsNode n = Some c -> it = Some a -> numbersAlone c -> sameText a).
    { intros c a EC EA. rewrite EC in F2. destruct F2 as (a' & E & _ & X). replace a with a' by congruence. exact X. }
    assert (F1' : Forall2 QF (get_or (sPrefixItems n) []) tu) by (eapply Forall2_impl; [|exact F1]; intros ? ? [X _]; exact X).
    assert (F2' : match itemsNode n with Some c => exists a, it = Some a /\ QF c a | None => it = None end)
      by (destruct (itemsNode n); [destruct F2 as (a & E & X & _); eauto|exact F2]).
    assert (F3' : match sContains n with Some c => exists a m, ct = Some a /\ containsAs PE n c m /\ QF m a | None => ct = None end)
      by (destruct (sContains n); [destruct F3 as (a & m & E & J & X & _); eauto|exact F3]).
    clear F1 F2 F3. rename F1' into F1, F2' into F2, F3' into F3.
    destruct (array_parts n _ _ _ _ _ _ _ HF F1 F2 F3) as (G1 & G2 & G3). clear F1 F2 F3. rename G1 into F1, G2 into F2, G3 into F3.
    assert (F4 : match sContains n with Some c => exists a, ct = Some a /\ Q c a /\ forall i, itemsNode n = Some i -> Q i a | None => ct = None end).
    { destruct (sContains n) as [c|]; [|exact F3]. destruct F3 as (a & m & E & J & X). exists a. split; [exact E|].
      destruct (A5 c eq_refl) as [_ A5']. unfold containsAs in J. destruct (itemsNode n) as [i|].
      - destruct A5' as [CM _]. split; [|intros i' E'; injection E' as <-];
          (intros s1 w s2 Yw Nw; eapply Hjoin; [exact J|exact CM|exact (X s1 w s2 Yw Nw)|]); [right; left; reflexivity|left; reflexivity].
      - subst m. split; [exact X|discriminate]. }
    clear F3. rename F4 into F3.
    destruct (array_values n tu it ct st v st' HS A3 ST A4 A1 (fun c E => proj1 (A5 c E)) A8 F1 F2 F3 HY NC) as (l & -> & AP & DI).
    apply only_array; auto. intros l' E. injection E as <-. split; [|exact DI].
    assert (C1 : forall dt, sItems (withType "array" n) = Some dt -> get_or (itNodes dt) [] = []) by exact A8.
    assert (C2 : addlItemsFalse (withType "array" n) = false).
    { unfold addlItemsFalse. change (sAdditionalItems (withType "array" n)) with (sAdditionalItems n). rewrite A1. reflexivity. }
    destruct (array_sizes PE GE (withType "array" n) _ st (JArr l) st' HP' (sType_set _ _) HS' HO A6 C1 C2 A9 A7 ACC HY) as [[X _]|(l' & E & R)];
      [discriminate|]. injection E as <-. exact R. }
  destruct (String.eqb_spec t "number") as [->|].
  { specialize (T2 eq_refl). unfold numeric in T2. apply number_made with (2 := HY) in H. destruct H as (dr & H).
    destruct (sMultipleOf n) as [mo|] eqn:B2.
    { destruct (NumberGrain.number_multiple_ok n mo dr v T2 B2 H) as (x & V & M1 & M2). eapply only_number; eauto using hasType_number. }
    destruct T2 as (B1 & B3 & B4). apply number_ok in H; auto. destruct H as (x & V & M1 & M2 & M3 & M4 & _).
    eapply only_number; eauto using hasType_number.
    - split; [auto|split; [auto|split]]; intros e He; eauto.
    - intros m Hm. congruence. }
  destruct (String.eqb_spec t "integer") as [->|].
  { destruct (T3 eq_refl) as (B1 & B2). apply number_made with (2 := HY) in H. destruct H as (dr & H).
    apply integer_ok in H; auto. destruct H as (z & V & M1 & M2). eapply only_number; eauto using hasType_integer. }
  destruct (String.eqb_spec t "string") as [->|].
  { destruct (string_sound n g s s' st v st' (T1 eq_refl) H HY) as (str & -> & OS). apply only_string; auto. }
  destruct (String.eqb_spec t "boolean") as [->|].
  { apply good_ok in H. destruct H as [-> _]. apply yields_step in HY. destruct HY as (k & HY). cbn [genStep] in HY.
    apply bindM_ok in HY. destruct HY as (dr & s0 & _ & HY). apply ret_ok in HY. destruct HY as [-> _]. apply only_bool. }
  apply good_ok in H. destruct H as [-> _].
  assert (v = JNull) by (eapply null_value; eapply yields_made; eauto). subst v.
  assert (t = "null") by (cbn in HT; intuition congruence). subst t. apply only_null.
Qed.

(* whether the keywords of strings, numbers and objects are refused does not depend on the state *)
Lemma string_again : forall n s g s' s1 r s1', parseString PE n s = Ok (Good g, s') -> parseString PE n s1 = Ok (r, s1') -> r = Good g.
Proof.
  intros n s g s' s1 r s1' H H1. unfold parseString in *.
  repeat (match type of H with (if ?b then bad _ else _) _ = _ => destruct b; [apply bad_ok in H; tauto|] end).
  destruct (sPattern n) as [p|].
  - destruct (pxRegexOk PE p); [|apply bad_ok in H; tauto]. apply good_ok in H. apply pret_ok in H1. destruct H as [-> _], H1 as [-> _]. auto.
  - apply good_ok in H. apply pret_ok in H1. destruct H as [-> _], H1 as [-> _]. auto.
Qed.
Lemma num_again : forall n b s g s' s1 r s1', parseNum n b s = Ok (Good g, s') -> parseNum n b s1 = Ok (r, s1') -> r = Good g.
Proof.
  intros n b s g s' s1 r s1' H H1. unfold parseNum in *. destruct (parseNumber n b) as [[c|ng]|]; [| |apply bad_ok in H; tauto];
  apply good_ok in H; apply pret_ok in H1; destruct H as [-> _], H1 as [-> _]; auto.
Qed.
Lemma object_again : forall f f' n s g s' s1 r s1', parseObject PE (parseF PE f false) n s = Ok (Good g, s') ->
  parseObject PE (parseF PE f' false) n s1 = Ok (r, s1') -> exists g', r = Good g'.
Proof.
  intros f f' n s g s' s1 r s1' H H1. unfold parseObject in *.
  repeat (match type of H with (if ?b then bad _ else _) _ = _ => destruct b; [apply bad_ok in H; tauto|] end). clear H.
  apply pbind_ok in H1. destruct H1 as (pats & s2 & _ & H). apply pbind_ok in H. destruct H as (ps & s3 & _ & H).
  apply pbind_ok in H. destruct H as (add & s4 & _ & H). apply pret_ok in H. destruct H as [-> _]. eauto.
Qed.
(* an array is refused for its own keywords or for an element, which is reported *)
Lemma array_rest : forall f' n s1 r s1', sequential PE GE mt fm rf trying kid n ->
  badBounds (get_or (sMinItems n) 0) (get_or (sMaxItems n) 0) = false -> badBounds (minContainsOf n) (get_or (sMaxContains n) 0) = false ->
  badBounds (minContainsOf n) (get_or (sMinItems n) 0) = false -> badBounds (prefixLength n + minContainsOf n) (get_or (sMaxItems n) 0) = false ->
  (get_or (sMaxItems n) 0 <? prefixLength n) && is_some (sMaxItems n) = false ->
  parseArray PE (parseF PE f' false) (merge PE f') n s1 = Ok (r, s1') -> pErrs s1' = [] -> pDepth s1 + d <= pxMaxDepth PE -> exists g', r = Good g'.
Proof.
  intros f' n s1 r s1' (HA & HU & _ & _ & HC & _ & _ & HI & _ & HK) B1 B2 B3 B4 B5 H1 HE HD. unfold parseArray in *.
  assert (A5c : forall c m, sContains n = Some c -> itemsFalse n = false /\ (containsAs PE n c m -> (itemsNode n <> None -> sContains m = None) /\ kid m)).
  { intros c m E. destruct (HC c E) as [X Y]. split; [exact X|]. unfold containsAs. destruct (itemsNode n) as [i|].
    - intros J. destruct Y as [_ Y]. destruct (Y m J). auto.
    - intros ->. split; [intros Z; exfalso; apply Z; reflexivity|exact Y]. }
  fold (minContainsOf n) in H1. fold (prefixLength n) in H1. rewrite B1, B2, B3, B4, B5 in H1.
  cbv zeta in H1. rewrite HA, HU in H1. fold (itemsNode n) in H1. fold (itemsFalse n) in H1. cbn [optScope] in H1.
  assert (TN : tupleNodes n = get_or (sPrefixItems n) []).
  { unfold tupleNodes. destruct (sPrefixItems n) as [[|x q]|]; cbn [get_or]; auto; destruct (sItems n) as [dt|]; auto; now rewrite (HI dt eq_refl). }
  rewrite TN in H1. rename H1 into H.
  apply pbind_ok in H. destruct H as (it & s0 & H0 & H).
  assert (K0 : keeps PE s1 s0) by (eapply st_optScope; [|exact H0]; intros; apply st_parseF).
  assert (E0 : pErrs s0 = []).
  { revert H HE. match goal with |- ?m s0 = _ -> _ => assert (S : stable PE m) end.
    { destruct it; [|apply st_ret]. apply st_bind; [apply st_ret|intros]. destruct a0; [|apply st_ret].
      apply st_bind; [apply st_parseContains; intros; [apply st_parseF|apply st_merge]|intros].
      destruct a1; [|apply st_ret]. apply st_bind; [apply st_parseTuple; intros; apply st_parseF|intros]. destruct a2; [|apply st_ret].
      apply st_bind; [apply st_ret|intros]. destruct a3; apply st_ret. }
    intros X Y. eapply errs_back; [eapply S; exact X|exact Y]. }
  eapply opt_clean in H0; [|exact HQ|exact Hd|intros c Hc; apply HK; auto|auto|auto]; eauto. destruct H0 as (it' & -> & _).
  apply pbind_ok in H. destruct H as (ad & s2 & H1 & H). apply pret_ok in H1. destruct H1 as [-> ->].
  apply pbind_ok in H. destruct H as (ct & s2 & H2 & H).
  assert (K2 : keeps PE s0 s2) by (eapply st_parseContains; [| |exact H2]; intros; [apply st_parseF|apply st_merge]).
  assert (D0 : pDepth s0 + d <= pxMaxDepth PE) by (rewrite (kDepth _ _ _ K0); auto).
  assert (D2 : pDepth s2 + d <= pxMaxDepth PE) by (rewrite (kDepth _ _ _ K2); auto).
  assert (E2 : pErrs s2 = []).
  { revert H HE. match goal with |- ?m s2 = _ -> _ => assert (S : stable PE m) end.
    { destruct ct; [|apply st_ret]. apply st_bind; [apply st_parseTuple; intros; apply st_parseF|intros]. destruct a0; [|apply st_ret].
      apply st_bind; [apply st_ret|intros]. destruct a1; apply st_ret. }
    intros X Y. eapply errs_back; [eapply S; exact X|exact Y]. }
  assert (CT : exists c, ct = Good c).
  { eapply contains_clean in H2; [|exact HQ|exact Hd|exact A5c|exact E2|exact D0]. destruct H2 as (g' & -> & _). eauto. }
  destruct CT as [c ->].
  apply pbind_ok in H. destruct H as (tu & s3 & H3 & H).
  assert (E3 : s3 = s1').
  { destruct tu as [tu|m]; [|apply pret_ok in H; destruct H; auto].
    apply pbind_ok in H. destruct H as (un & s4 & H4 & H). apply pret_ok in H4. destruct H4 as [-> ->]. apply pret_ok in H. destruct H; auto. }
  subst s3. eapply tuple_clean in H3; [|exact HQ|exact Hd|intros c0 Hc; apply HK; auto|auto|auto]; eauto. destruct H3 as (tu' & -> & _).
  apply pbind_ok in H. destruct H as (un & s4 & H4 & H). apply pret_ok in H4. destruct H4 as [-> ->]. apply pret_ok in H. destruct H as [-> _]. eauto.
Qed.

Lemma array_again : forall f f' n s g s' s1 r s1', sequential PE GE mt fm rf trying kid n -> parseArray PE (parseF PE f false) (merge PE f) n s = Ok (Good g, s') ->
  parseArray PE (parseF PE f' false) (merge PE f') n s1 = Ok (r, s1') -> pErrs s1' = [] -> pDepth s1 + d <= pxMaxDepth PE -> exists g', r = Good g'.
Proof.
  intros f f' n s g s' s1 r s1' HS H H1 HE HD.
  apply parseArray_shape in H. cbv zeta in H. destruct H as (tu & it & ad & ct & un & _ & _ & _ & _ & _ & _ & B1 & B2 & B3 & B4 & B5).
  eapply array_rest; eauto. destruct (sMaxItems n) as [m|]; cbn [get_or is_some]; [|apply andb_false_r].
  specialize (B5 m eq_refl). destruct (Z.ltb_spec m (prefixLength n)); auto. lia.
Qed.

Lemma type_again : forall t n f s r s', plain n -> unsupported n = false -> usesOnly PE GE mt fm rf trying kid t n ->
  (exists g, accepted PE (withType t n) g) ->
  pDepth s + d <= pxMaxDepth PE -> parseType PE (parseF PE f false) (merge PE f) t n s = Ok (r, s') -> pErrs s' = [] ->
  exists g, r = Good g.
Proof.
  intros t n f s r s' HP HU (HT & _ & _ & _ & T4 & _) (g0 & HA) HD H HE.
  assert (Nt : t <> "") by (intros ->; cbn in HT; intuition discriminate).
  apply (accepted_typed PE (withType t n) g0 t) in HA; [|apply plain_type; auto|apply sType_set|auto].
  destruct HA as (f0 & s0 & s0' & HA). unfold withType in HA. rewrite parseType_type in HA.
  unfold parseType in HA, H.
  destruct (String.eqb t "object"). { eapply object_again; eauto. }
  destruct (String.eqb_spec t "array"). { eapply array_again; eauto. }
  destruct (String.eqb t "number"). { exists g0. eapply num_again; eauto. }
  destruct (String.eqb t "integer"). { exists g0. eapply num_again; eauto. }
  destruct (String.eqb t "string"). { exists g0. eapply string_again; eauto. }
  destruct (String.eqb t "boolean"); apply pret_ok in H; destruct H as [-> _]; eauto.
Qed.

Lemma types_sound : forall ts n f s gs s', plain n -> unsupported n = false -> smallSizes n ->
  (forall t, In t ts -> usesOnly PE GE mt fm rf trying kid t n) ->
  (forall t s r s', In t ts -> pDepth s + d <= pxMaxDepth PE -> parseType PE (parseF PE f false) (merge PE f) t n s = Ok (r, s') -> pErrs s' = [] -> exists g, r = Good g) ->
  pDepth s <= pDeep s -> pDepth s + d <= pxMaxDepth PE ->
  parseTypes PE (parseF PE f false) (merge PE f) ts n s = Ok (gs, s') -> pErrs s' = [] ->
  Forall2 (fun t g => inner fine g -> forall st v st', yields GE g st v st' -> calm st st' -> typedOk t n v) ts gs.
Proof.
  induction ts as [|t ts IH]; intros n f s gs s' HP HU HS H1 H2 HDp HD H HE; cbn [parseTypes] in H.
  - apply pret_ok in H. destruct H as [-> _]. constructor.
  - apply pbind_ok in H. destruct H as (r & s0 & H0 & H). apply pbind_ok in H. destruct H as (gs0 & s1 & H3 & H).
    apply pret_ok in H. destruct H as [-> ->].
    assert (K0 : keeps PE s s0) by (eapply st_parseType; [| |exact H0]; intros; [apply st_parseF|apply st_merge]).
    assert (K1 : keeps PE s0 s1) by (eapply st_parseTypes; [| |exact H3]; intros; [apply st_parseF|apply st_merge]).
    pose proof (errs_back _ _ _ K1 HE) as E0.
    assert (UT : usesOnly PE GE mt fm rf trying kid t n) by (apply H1; left; auto).
    destruct (H2 t s r s0 (or_introl eq_refl) HD H0 E0) as (g & ->).
    constructor.
    + intros HF st v st' HY NC. cbn [orNull] in HY, HF. eapply type_sound; eauto.
    + apply (IH n f s0 gs0 s1); auto. { intros; apply H1; right; auto. } { intros t0 q1 q2 q3 Hq. apply H2. right; auto. }
      { pose proof (kDepth _ _ _ K0). pose proof (kDeep _ _ _ K0). lia. } { rewrite (kDepth _ _ _ K0). auto. }
Qed.

(* a plain node *)
Definition shaped (n : schemaNode) (v : json) : Prop := okFlat mt fm n v /\ objPart mt holds n v /\ arrPart holds n v.
Lemma typedOk_valid : forall t n v, plain n -> In t (typeNames (sType n)) -> typedOk t n v -> shaped n v.
Proof.
  intros t n v HP HI (A1 & A2 & A3 & A4 & A5 & A6 & A7). split; [|auto].
  split; [eapply okType_names; eauto|]. split; [intros l E; rewrite (plEnum _ HP) in E; discriminate|].
  split; [intros l E; rewrite (plConst _ HP) in E; discriminate|]. auto.
Qed.
Lemma inferType_all : forall n, inferType n <> "unknown" -> In (inferType n) allTypes.
Proof. intros n. unfold inferType. repeat match goal with |- context [if ?b then _ else _] => destruct b end; cbn; tauto. Qed.

Lemma num_unknown : forall n b s r s', sMinimum n = None -> sMaximum n = None -> sExclusiveMinimum n = None -> sExclusiveMaximum n = None -> sMultipleOf n = None ->
  parseNum n b s = Ok (r, s') -> exists g, r = Good g.
Proof.
  intros n b s r s' H1 H2 H3 H4 H5 H.
  assert (P : exists p, parseNumber n b = Good p).
  { unfold parseNumber. replace (resolveMinMax n b) with (resolveMinMax emptyNode b).
    - assert (X : match resolveMinMax emptyNode b with Good _ => true | Bad _ => false end = true) by (destruct b; vm_compute; reflexivity).
      destruct (resolveMinMax emptyNode b) as [[mn mx]|]; [|discriminate X]. destruct (feqb mn mx); eauto.
    - unfold resolveMinMax. rewrite H1, H2, H3, H4, H5. reflexivity. }
  destruct P as [p P]. unfold parseNum in H. rewrite P in H. destruct p; apply pret_ok in H; destruct H as [-> _]; eauto.
Qed.
(* a node without type and without any keyword that tells one accepts all types *)
Lemma unknown_accepted : forall n t f s r s', plain n -> inferType n = "unknown" -> usesOnly PE GE mt fm rf trying kid t n -> In t allTypes ->
  pDepth s + d <= pxMaxDepth PE -> parseType PE (parseF PE f false) (merge PE f) t n s = Ok (r, s') -> pErrs s' = [] -> exists g, r = Good g.
Proof.
  intros n t f s r s' HP HI (_ & _ & _ & _ & T4 & _) HT HD H HE. unfold inferType in HI.
  repeat match type of HI with (if ?b then _ else _) = _ => let B := fresh "B" in destruct b eqn:B; [discriminate HI|] end. clear HI.
  repeat match goal with B : _ || _ = false |- _ => apply orb_false_iff in B; destruct B end.
  assert (NO : forall A (o : option A), is_some o = false -> o = None) by (intros A [x|] E; [discriminate E|reflexivity]).
  repeat match goal with B : is_some _ = false |- _ => apply NO in B end.
  unfold parseType in H.
  destruct (String.eqb t "object").
  { unfold parseObject in H. repeat match goal with B : _ = None |- _ => rewrite B in H end. cbn [get_or is_some andb negb List.length] in H.
    cbv [Z.ltb Z.compare] in H. rewrite andb_false_r in H.
    apply pbind_ok in H. destruct H as (pats & s2 & _ & H). apply pbind_ok in H. destruct H as (ps & s3 & _ & H).
    apply pbind_ok in H. destruct H as (add & s4 & _ & H). apply pret_ok in H. destruct H as [-> _]. eauto. }
  destruct (String.eqb_spec t "array").
  { eapply array_rest; [auto| | | | | |exact H|auto|auto]; unfold minContainsOf, prefixLength; repeat match goal with B : _ = None |- _ => rewrite B end; try reflexivity. }
  destruct (String.eqb t "number"). { eapply num_unknown; eauto. }
  destruct (String.eqb t "integer"). { eapply num_unknown; eauto. }
  destruct (String.eqb t "string").
  { unfold parseString in H. repeat match goal with B : _ = None |- _ => rewrite B in H end. cbn [get_or is_some andb negb orb] in H.
    cbv [Z.ltb Z.compare] in H. cbn [andb orb] in H. apply pret_ok in H. destruct H as [-> _]. eauto. }
  destruct (String.eqb t "boolean"); apply pret_ok in H; destruct H as [-> _]; eauto.
Qed.


Lemma plain_sound : forall n f s g s' st v st', plain n -> smallSizes n ->
  (forall t, In t (typeNames (sType n)) -> usesOnly PE GE mt fm rf trying kid t n) ->
  (forall x ts, sType n = Some (mkMT x (Some ts)) -> forall t, In t ts -> exists g, accepted PE (withType t n) g) ->
  pDepth s <= pDeep s -> pDepth s + d <= pxMaxDepth PE ->
  stepF PE f n s = Ok (Good g, s') -> pErrs s' = [] -> fine g -> yields GE g st v st' -> calm st st' -> shaped n v.
Proof.
  intros n f s g s' st v st' HP HS H1 H2 HDp HD H HE HF HY NC. apply Hfine in HF.
  pose proof (step_supported _ _ _ _ _ _ H) as HU. rewrite step_plain in H; auto.
  assert (MANY : forall ts, (forall t, In t ts -> In t (typeNames (sType n))) ->
     (forall t s r s', In t ts -> pDepth s + d <= pxMaxDepth PE -> parseType PE (parseF PE f false) (merge PE f) t n s = Ok (r, s') -> pErrs s' = [] -> exists g, r = Good g) ->
     parseMultiple PE (parseF PE f false) (merge PE f) ts n s = Ok (Good g, s') -> shaped n v).
  { intros ts I1 I2 X. unfold parseMultiple in X. apply pbind_ok in X. destruct X as (gs & s1 & X & X1). apply good_ok in X1. destruct X1 as [-> ->].
    apply types_sound in X; auto. apply yields_step in HY. destruct HY as (k & HY). cbn [genStep] in HY.
    apply genOneOf_ok in HY. destruct HY as (g & HI & MB). apply prod_made in MB.
    destruct (Forall2_In_r _ _ _ _ _ _ X HI) as (t & It & C). destruct MB as (a & b & Y & A & B).
    eapply typedOk_valid; eauto. eapply C; eauto. { intros x h P. eapply HF. eapply SpecRefs.part_types; eauto. } }
  assert (ONE : forall t, In t (typeNames (sType n)) -> parseType PE (parseF PE f false) (merge PE f) t n s = Ok (Good g, s') -> shaped n v).
  { intros t It X. eapply typedOk_valid; eauto. eapply type_sound; eauto. }
  unfold byType in H. destruct (sType n) as [[x [ts|]]|] eqn:ET; cbn [mtMultiple mtSingle] in H.
  - apply (MANY ts); auto. intros t q r q' It Hq Hp He. eapply type_again; eauto.
  - destruct (String.eqb_spec x "") as [->|Nx]; cbn [negb] in H.
    + exfalso. destruct (H1 "" ltac:(cbn; auto)) as [X _]. cbn in X. intuition discriminate.
    + apply (ONE x); auto. cbn. auto.
  - destruct (String.eqb_spec (inferType n) "unknown") as [EI|NI].
    + apply (MANY typeAll); auto.
      intros t q r q' It Hq Hp He. eapply unknown_accepted; eauto.
    + apply (ONE (inferType n)); auto. apply inferType_all; auto.
Qed.
End Level.

End Gen.

(* ------------------------------------------------------------------ the fragment of SpecFragment.v, without references *)
Section Whole.
Variable PE : penv.
Variable GE : env.
Variable mt fm : string -> string -> Prop.
Variable rf : string -> json -> Prop.
Hypothesis HO : smallOptions (eOpts GE).
Variable trying : bool.
Variable calm : gst -> gst -> Prop.            (* the runs for which validity is shown *)
Hypothesis Hcut : forall a b, calm a b -> ~ emitted EvCutoff a b.
Hypothesis Hwide : forall a b a' b', calm a b -> after a a' -> after b' b -> calm a' b'.
Hypothesis Hneg : trying = true -> forall a b, calm a b -> ~ emitted EvConstraintFail a b /\ ~ emitted EvUnchecked a b.
Hypothesis Hsame : trying = true -> forall a b, calm a b -> ~ emitted EvUniqueFail a b.
Notation Q := (Q GE (valid mt fm rf) calm).

(* enum and const *)
Lemma enum_sound : forall n l f s g s' st v st', flat n -> sEnum n = Some l -> l <> [] -> stepF PE f n s = Ok (Good g, s') ->
  yields GE g st v st' -> In v l.
Proof.
  intros n l f s g s' st v st' HF HE HN H HY. destruct l as [|x l]; [congruence|].
  apply step_enum with (x := x) (l := l) in H; auto. apply parseEnum_shape in H. destruct H as (c & l' & _ & El & H).
  rewrite HE in El. cbn [get_or] in El.
  assert (In v l').
  { destruct H as [(w & E & ->)|(a & b & r & E & ->)].
    - apply const_value in HY. subst v. rewrite E. left; auto.
    - apply enum_value in HY. exact HY. }
  rewrite El in H0. apply filter_In in H0. tauto.
Qed.
Lemma const_sound : forall n x f s g s' st v st', flat n -> sEnum n = None -> sConst n = Some x -> stepF PE f n s = Ok (Good g, s') ->
  yields GE g st v st' -> v = x.
Proof.
  intros n x f s g s' st v st' HF HE HC H HY. apply step_const with (v := x) in H; auto. apply parseConst_shape in H.
  destruct H as (c & _ & _ & ->). now apply const_value in HY.
Qed.

(* merging *)
Lemma merges_implies : forall l m v, mergesTo PE l m -> canMerge l -> valid mt fm rf m v -> forall n, In n l -> valid mt fm rf n v.
Proof.
  intros l m v (f & s & s' & H & E) C V n I. eapply merge_keeps; eauto. rewrite E. intros (a & b & []).
Qed.
(* merging a single schema keeps its combinations *)
Lemma merges_one : forall n m, mergesTo PE [n] m -> sRef n = None -> sAllOf n = None ->
  get_or (sAnyOf m) [] = get_or (sAnyOf n) [] /\ get_or (sOneOf m) [] = get_or (sOneOf n) [].
Proof.
  intros n m (f & s & s' & H & _) HR HA. destruct f as [|f]; [discriminate|]. cbn [merge] in H.
  apply pbind_ok in H. destruct H as (m1 & s1 & H1 & H). cbn [mergeLoop] in H1.
  apply pbind_ok in H1. destruct H1 as (m2 & s2 & H2 & H1). apply pret_ok in H1. destruct H1 as [-> ->].
  unfold mergeOne, resolveNodeRef in H2. rewrite HR in H2.
  apply pbind_ok in H2. destruct H2 as (x & s3 & H3 & H2). apply pret_ok in H3. destruct H3 as [-> ->]. rewrite HA in H2.
  apply pbind_ok in H2. destruct H2 as (x & s4 & H4 & H2). apply pret_ok in H4. destruct H4 as [-> ->].
  apply pbind_ok in H2. destruct H2 as (x & s5 & H5 & H2). apply pret_ok in H2. destruct H2 as [-> ->].
  assert (B : branches x = []). { rewrite (into_branches _ _ _ _ _ _ H5). unfold branches. rewrite HA. reflexivity. }
  assert (X : m = x).
  { destruct f as [|f]; [discriminate|]. cbn [flatten] in H. unfold branches in B. destruct (sAllOf x) as [l|]; [cbn in B; subst l|]; apply pret_ok in H; tauto. }
  subst m. fields H5. rewrite Em. cbn [sAnyOf sOneOf]. rewrite !slice_app. split; reflexivity.
Qed.
Lemma some_In : forall A (P : A -> Prop) l x, In x l -> P x -> some P l.
Proof. induction l; intros x [] ?; cbn; [left; congruence|right; eauto]. Qed.
Lemma valid_anyOf : forall n v l, sAnyOf n = Some l -> valid mt fm rf (set_sAnyOf None n) v -> (exists b, In b l /\ valid mt fm rf b v) -> valid mt fm rf n v.
Proof.
  intros n v l E V (b & I & Vb). rewrite valid_eq in V. rewrite valid_eq.
  cbn [sType sLength sProperties sAdditionalProperties sPatternProperties sItems sContains sMinContains sMaxContains sPrefixItems sAdditionalItems sNot sAllOf sAnyOf sOneOf sIf sThen sElse sRef set_sAnyOf] in V.
  change (okFlat mt fm (set_sAnyOf None n) v) with (okFlat mt fm n v) in V. rewrite E.
  destruct V as (V1 & V2 & V3 & V4 & _ & V6). repeat (split; [assumption|]). split; [|exact V6]. cbn [present]. eapply some_In; eauto.
Qed.
Lemma valid_oneOf : forall n v b, sOneOf n = Some [b] -> valid mt fm rf (set_sOneOf None n) v -> valid mt fm rf b v -> valid mt fm rf n v.
Proof.
  intros n v b E V Vb. rewrite valid_eq in V. rewrite valid_eq.
  cbn [sType sLength sProperties sAdditionalProperties sPatternProperties sItems sContains sMinContains sMaxContains sPrefixItems sAdditionalItems sNot sAllOf sAnyOf sOneOf sIf sThen sElse sRef set_sOneOf] in V.
  change (okFlat mt fm (set_sOneOf None n) v) with (okFlat mt fm n v) in V. rewrite E.
  destruct V as (V1 & V2 & V3 & V4 & V5 & _ & V6). repeat (split; [assumption|]). split; [|exact V6]. cbn [present SpecSchema.exactlyOne every]. left. auto.
Qed.

Section Combine.
Variable kid : schemaNode -> Prop.
Variable d : Z.
Hypothesis HQ : forall c f s g s', kid c -> parseNode PE f c s = Ok (Good g, s') -> pErrs s' = [] -> pDepth s + d <= pxMaxDepth PE -> Q c g.
Hypothesis Hd : forall c, kid c -> 1 <= d.

Lemma allOf_sound : forall n l f s g s', sRef n = None -> sAllOf n = Some l -> canMerge (l ++ [set_sAllOf None n])%list ->
  (forall m, mergesTo PE (l ++ [set_sAllOf None n])%list m -> kid m) ->
  pDepth s + d <= pxMaxDepth PE -> stepF PE f n s = Ok (Good g, s') -> pErrs s' = [] -> Q n g.
Proof.
  intros n l f s g s' HR HA HM HK HD H HE. unfold stepF, schemaStep in H. destruct (unsupported n); [apply bad_ok in H; tauto|]. rewrite HR, HA in H.
  unfold parseAllOf in H. apply pbind_ok in H. destruct H as (m & s1 & H1 & H). apply pbind_ok in H. destruct H as (r & s2 & H2 & H).
  destruct r as [g'|e]; [|apply bad_ok in H; tauto]. apply good_ok in H. destruct H as [-> ->].
  assert (K1 : keeps PE s s1) by (eapply st_merge; exact H1). assert (K2 : keeps PE s1 s2) by (eapply st_inScope; [|exact H2]; intros; apply st_parseF).
  assert (E1 : pErrs s1 = []) by (eapply errs_back; eauto).
  assert (M : mergesTo PE (l ++ [set_sAllOf None n])%list m) by (exists f, s, s1; auto).
  eapply scope_clean in H2; [|exact HQ|exact Hd|exact (HK m M)|exact HE|rewrite (kDepth _ _ _ K1); exact HD].
  destruct H2 as (g0 & X & HG). injection X as <-.
  intros st v st' HY NC. apply yields_step in HY. destruct HY as (k & HY). cbn [genStep] in HY.
  assert (V : valid mt fm rf m v) by (eapply HG; [exists k; exact HY|exact NC]).
  pose proof (merges_implies _ _ _ M HM V) as W. rewrite valid_allOf. split; [apply W; apply in_or_app; right; left; reflexivity|].
  unfold branches. rewrite HA. cbn [get_or]. intros b I. apply W. apply in_or_app. auto.
Qed.

Lemma comb_sound : forall n one l f s g s', sRef n = None -> sAllOf n = None -> canMerge [n] ->
  (if one : bool then sAnyOf n = None /\ sOneOf n = Some l /\ exists b, l = [b] else sOneOf n = None /\ sAnyOf n = Some l) ->
  (forall b base, In b l -> mergesTo PE [n] base -> let body := if one then set_sOneOf None base else set_sAnyOf None base in
     canMerge [body; b] /\ forall m, mergesTo PE [body; b] m -> kid m) ->
  pDepth s + d <= pxMaxDepth PE -> stepF PE f n s = Ok (Good g, s') -> pErrs s' = [] -> Q n g.
Proof.
  intros n one l f s g s' HR HA HM HL HK HD H HE.
  assert (Hl : l <> []).
  { destruct one; [destruct HL as (_ & _ & b & ->); discriminate|]. destruct HL as [_ HL]. destruct HM as (dd & F). destruct dd; [destruct F|].
    destruct F as (F & _). intros ->. specialize (F (set_sAllOf None n)).
    apply (siAnyOf (set_sAllOf None n)); [apply F; cbn [concatMap]; rewrite conjuncts_eq; left; reflexivity|exact HL]. }
  unfold stepF, schemaStep in H. destruct (unsupported n); [apply bad_ok in H; tauto|]. rewrite HR, HA in H.
  replace (is_some (sOneOf n) || is_some (sAnyOf n)) with true in H by (destruct one; [destruct HL as (-> & -> & _)|destruct HL as (-> & ->)]; reflexivity).
  unfold parseCombination in H. cbv zeta in H.
  apply pbind_ok in H. destruct H as (gs & s1 & H1 & H).
  assert (X : parseBranches PE (parseF PE f false) (merge PE f) one 0 n l s = Ok (gs, s1) /\
              (match gs with [g] => good g | [] => bad "no branch" | _ => good (GComb gs) end) s1 = Ok (Good g, s')).
  { destruct one; [destruct HL as (E1 & E2 & b & ->); rewrite E2 in H, H1|destruct HL as (E1 & E2); rewrite E1 in H, H1; rewrite E2 in H1]; cbn [get_or] in H, H1; auto. }
  clear H H1. destruct X as [H1 H].
  assert (s1 = s' /\ (gs = [g] \/ g = GComb gs)) as [-> HG].
  { destruct gs as [|g1 [|g2 gs]]; [apply bad_ok in H; tauto| |]; apply good_ok in H; destruct H as [-> ->]; auto. }
  eapply branches_clean in H1; [|exact HQ|exact Hd|intros sub base m I B M; destruct (HK sub base I B) as [_ Y]; exact (Y m M)|exact HE|exact HD].
  assert (ANY : forall g0 st v st', In g0 gs -> yields GE g0 st v st' -> calm st st' -> valid mt fm rf n v).
  { intros g0 st v st' I HY NC. destruct (Forall2_In_r _ _ _ _ _ _ H1 I) as (b & Ib & base & m & B & M & HQ0).
    pose proof (HQ0 _ _ _ HY NC) as V. destruct (HK b base Ib B) as [C _]. pose proof (merges_implies _ _ _ M C V) as W.
    pose proof (W _ (or_introl eq_refl)) as W1. pose proof (W _ (or_intror (or_introl eq_refl))) as W2.
    destruct (merges_one _ _ B HR HA) as [O1 O2].
    apply (merges_implies [n] base v B HM); [|left; reflexivity].
    destruct one; [destruct HL as (E1 & E2 & b' & ->)|destruct HL as (E1 & E2)].
    - rewrite E2 in O2. destruct Ib as [<-|[]]. destruct (sOneOf base) as [[|y [|z q]]|] eqn:EB; cbn in O2; try discriminate. injection O2 as ->.
      eapply valid_oneOf; eauto.
    - rewrite E2 in O1. destruct (sAnyOf base) as [q|] eqn:EB; cbn in O1; [|congruence]. subst q. eapply valid_anyOf; eauto. }
  intros st v st' HY NC. destruct HG as [->| ->].
  - eapply ANY; [left; reflexivity|exact HY|exact NC].
  - apply yields_step in HY. destruct HY as (k & HY). cbn [genStep] in HY. apply guarded_ok in HY. destruct HY as [(_ & C & _)|(st1 & A1 & HY & _)]; [elim (Hcut _ _ NC C)|].
    apply genOneOf_ok in HY. destruct HY as (g0 & I & MB). apply prod_made in MB. destruct MB as (a & b & Y & A & B).
    eapply ANY; [exact I|exact Y|]. eapply Hwide; [exact NC|eapply after_trans; eauto|exact B].
Qed.

(* what is generated for a schema with a negation satisfies the rest of the schema *)
Lemma not_rest : forall n x f s g s', trying = true -> sRef n = None -> sAllOf n = None -> sAnyOf n = None -> sOneOf n = None ->
  sMergedNot n = [] -> sNot n = Some x -> sRef x = None -> sAllOf x = None -> sNot x = None -> sMergedNot x = [] ->
  canMerge [set_sNot None (set_sMergedNot [] n)] ->
  (forall n1 x1, mergesTo PE [set_sNot None (set_sMergedNot [] n)] n1 -> mergesTo PE [emptyNode; x] x1 ->
     (exists k, keepsKeywords k n1 x1) /\ forall m, negatesTo PE n1 x1 m -> kid m) ->
  pDepth s + d <= pxMaxDepth PE -> stepF PE f n s = Ok (Good g, s') -> pErrs s' = [] ->
  forall st v st', yields GE g st v st' -> calm st st' ->
    valid mt fm rf (set_sNot None (set_sMergedNot [] n)) v /\ (decides GE mt fm n x -> ~ valid mt fm rf x v).
Proof.
  intros n x f s g s' NG HR HA HY1 HO1 MN HN XR XA XN XM CM HK HD H HE.
  destruct (NotSound.not_run PE f n x g s s' HR HA HY1 HO1 MN HN XR XA XN XM H HE) as
    (g0 & m & c & n1 & x1 & c1 & ta & tb & tc & td & te & -> & W & (MX & EX) & (M1 & EN) & (NM & EM & QM) & (PN & DP)).
  assert (S1 : mergesTo PE [set_sNot None (set_sMergedNot [] n)] n1) by (exists f, tc, td; auto).
  assert (S2 : mergesTo PE [emptyNode; x] x1) by (exists f, ta, tb; auto).
  destruct (HK n1 x1 S1 S2) as [[k KK] HM].
  assert (S3 : negatesTo PE n1 x1 m) by (exists f, td, c1, te; auto).
  assert (G0 : Q m g0) by (eapply HQ; [exact (HM m S3)|exact PN|exact HE|lia]).
  intros st v st' HY NC. destruct (Hneg NG _ _ NC) as [NF NU].
  apply NotValues.multi_values in HY. destruct HY as [[_ F]|[MB [U|MP]]]; [elim (NF F)|elim (NU U)|].
  destruct MB as (a & b & Y & A & B). assert (VM : valid mt fm rf m v) by (eapply G0; [exact Y|eapply Hwide; eauto]).
  assert (XC : NotValues.excludes n1 x1 c) by (eapply NotValues.excludes_within; [exact W|]; eapply NotValues.notMerge_excludes; eauto).
  assert (V1 : valid mt fm rf n1 v) by (eapply NotKeep.kept; [exact KK|exact NM|exact QM|eapply NotSound.passed_refused; eauto|exact VM]).
  assert (VR : valid mt fm rf (set_sNot None (set_sMergedNot [] n)) v) by (eapply merges_implies; [exact S1|exact CM|exact V1|left; reflexivity]).
  split; [exact VR|]. intros DE.
  destruct k as [|k]; [destruct KK|]. destruct KK as [CP _].
  eapply NotSound.negated_not; [exact HR|exact HA|exact XR|exact XA|exact MX|exact M1|exact NM|exact QM|exact W|exact CP|exact DE|exact MP| |].
  - apply valid_eq in VM. apply VM.
  - apply valid_eq in VR. destruct VR as ((T & _) & _). exact T.
Qed.
Lemma not_sound : forall n x f s g s', trying = true -> sRef n = None -> sAllOf n = None -> sAnyOf n = None -> sOneOf n = None ->
  sMergedNot n = [] -> sNot n = Some x -> sRef x = None -> sAllOf x = None -> sNot x = None -> sMergedNot x = [] ->
  canMerge [set_sNot None (set_sMergedNot [] n)] -> decides GE mt fm n x ->
  (forall n1 x1, mergesTo PE [set_sNot None (set_sMergedNot [] n)] n1 -> mergesTo PE [emptyNode; x] x1 ->
     (exists k, keepsKeywords k n1 x1) /\ forall m, negatesTo PE n1 x1 m -> kid m) ->
  pDepth s + d <= pxMaxDepth PE -> stepF PE f n s = Ok (Good g, s') -> pErrs s' = [] -> Q n g.
Proof.
  intros n x f s g s' NG HR HA HY1 HO1 MN HN XR XA XN XM CM DE HK HD H HE st v st' HY NC.
  destruct (not_rest n x f s g s' NG HR HA HY1 HO1 MN HN XR XA XN XM CM HK HD H HE st v st' HY NC) as [VR NX].
  eapply NotSound.valid_without; [exact HN|exact VR|exact (NX DE)].
Qed.
End Combine.

(* a schema used as it stands, given the soundness of its sub-schemas *)
Lemma simple_step : forall d n, simple PE GE mt fm rf trying (supported PE GE mt fm rf trying d) n ->
  (forall c q1 q2 q3 q4, supported PE GE mt fm rf trying d c -> parseNode PE q1 c q2 = Ok (Good q3, q4) -> pErrs q4 = [] ->
     pDepth q2 + Z.of_nat d <= pxMaxDepth PE -> Q c q3) ->
  (forall c, supported PE GE mt fm rf trying d c -> 1 <= Z.of_nat d) ->
  forall f s g s', stepF PE f n s = Ok (Good g, s') -> pErrs s' = [] -> pDepth s <= pDeep s -> pDepth s + Z.of_nat d <= pxMaxDepth PE -> Q n g.
Proof.
  intros d n H P1 P2 f' s1 g s2 H1 E2 D3 D4.
  destruct H as [(HF & l0 & EE & NE & V)|[(HF & EE & x & EX & V)|(HS & HPl & HT & HL)]].
  - intros st v st' HY NC. apply V. eapply enum_sound; eauto.
  - intros st v st' HY NC. assert (v = x) by (eapply const_sound; eauto). subst v. exact V.
  - intros st v st' HY NC.
    assert (X : shaped mt fm (valid mt fm rf) n v).
    { apply (plain_sound PE GE mt fm HO (valid mt fm rf) calm) with (rf := rf) (trying := trying) (fine := fun _ => True) (kid := supported PE GE mt fm rf trying d)
        (d := Z.of_nat d) (f := f') (s := s1) (g := g) (s' := s2) (st := st) (st' := st'); auto; try lia.
      - intros l1 m1 c1 v1 M1 C1 V1 I1. exact (merges_implies l1 m1 v1 M1 C1 V1 c1 I1).
      - intros x _ y z _. exact Logic.I.
      - intros c q1 q2 q3 q4 X1 X2 X3 X4 _. eapply P1; eauto. }
    destruct X as (X1 & X2 & X3). apply valid_split; auto; apply HPl.
Qed.

Theorem supported_sound : forall d n, supported PE GE mt fm rf trying d n -> forall f s g s', parseNode PE f n s = Ok (Good g, s') -> pErrs s' = [] ->
  pDepth s + Z.of_nat d <= pxMaxDepth PE -> Q n g.
Proof.
  induction d as [|d IH]; intros n H f s g s' HP HE HD; [destruct H|]. cbn [supported] in H.
  assert (HC : sConstraints n = None).
  { destruct H as [[[H _]|[[H _]|(_ & H & _)]]|[(_ & H & _)|[(_ & H & _)|[(_ & H & _)|(_ & _ & H & _)]]]]; [apply H|apply H|apply H|exact H|exact H|exact H|exact H]. }
  apply node_clean in HP; auto. destruct HP as (D1 & f' & s1 & s2 & H1 & D2 & D3 & l & Hl).
  assert (E2 : pErrs s2 = []) by (rewrite HE in Hl; symmetry in Hl; apply app_eq_nil in Hl; tauto).
  assert (P1 : forall c q1 q2 q3 q4, supported PE GE mt fm rf trying d c -> parseNode PE q1 c q2 = Ok (Good q3, q4) -> pErrs q4 = [] ->
               pDepth q2 + Z.of_nat d <= pxMaxDepth PE -> Q c q3) by (intros; eapply IH; eauto).
  assert (P2 : forall c, supported PE GE mt fm rf trying d c -> 1 <= Z.of_nat d) by (intros c Hc; destruct d; [destruct Hc|lia]).
  assert (D4 : pDepth s1 + Z.of_nat d <= pxMaxDepth PE) by lia.
  destruct H as [HS|[(HR & _ & l0 & HA & HM & HK)|[(HR & _ & HA & HO1 & HM & l0 & HL & HK)|[(HR & _ & HA & HY1 & HM & b & HL & HK)|(NG & HR & _ & HA & HY1 & HO1 & MN & x & HN & XR & XA & XN & XM & CM & DE & HK)]]]].
  - eapply simple_step; eauto; lia.
  - eapply (allOf_sound _ _ P1 P2); eauto.
  - apply (comb_sound _ _ P1 P2 n false l0 f' s1 g s2); auto.
  - apply (comb_sound _ _ P1 P2 n true [b] f' s1 g s2); auto. { split; [exact HY1|]. split; [exact HL|]. exists b. reflexivity. }
    intros b0 base [<-|[]] B. exact (HK base B).
  - apply (not_sound _ _ P1 n x f' s1 g s2); auto.
Qed.
Theorem simple_sound : forall d n, simple PE GE mt fm rf trying (supported PE GE mt fm rf trying d) n ->
  forall f s g s', stepF PE f n s = Ok (Good g, s') -> pErrs s' = [] -> pDepth s <= pDeep s -> pDepth s + Z.of_nat d <= pxMaxDepth PE -> Q n g.
Proof.
  intros d n H. apply simple_step; auto.
  - intros. eapply supported_sound; eauto.
  - intros c Hc. destruct d; [destruct Hc|lia].
Qed.
End Whole.
