(* C55: a negation leaves the other keywords of its schema in force. *)
From Coq Require Import ZArith Reals List String Bool Lia Lra.
From Flocq Require Import Core BinarySingleNaN.
From Verif Require Import Base Float64 Json Schema Util Options Number Gen GenInv PState RefPath Merge NotMerge Parse PFacts ParseKeep.
From Verif Require Import MergeFacts MergeProps MergeValid SpecMerge SpecNumber SpecSchema SpecRun SpecNegate SpecFragment ValueProps Sound NumberRefute ValueDemo P_Sound.
From Verif Require NotKeep.
Import ListNotations.
Open Scope string_scope.
Open Scope Z_scope.

(* m is what is left of n when x is negated without reporting anything.  A value of m in which no name
   appears that only x requires (those are dropped by the check of the negation) is valid for n.  Missing
   from the full statement: multiples, and the combinations of keywords that SpecNegate.compatible leaves
   out; for some of them the property is false (below). *)
Theorem C55_kept_partial : forall E matches formatted refers d fuel n x s m c s' v,
  keepsKeywords d n x -> notMerge E fuel n x s = Ok ((m, c), s') -> pErrs s' = pErrs s ->
  (forall k o, v = JObj o -> In k (refusedNames n x) -> assoc k o = None) ->
  valid matches formatted refers m v -> valid matches formatted refers n v.
Proof.
  intros E mt fm rf d fuel n x s m c s' v K H Q R V. eapply NotKeep.kept; eauto. intros k o EV I _. eapply R; eauto.
Qed.
Print Assumptions C55_kept_partial.

(* The keywords that a negation is not combined with stay as they are, word by word: references,
   definitions, anyOf, oneOf, conditions (also those collected from allOf branches), dependencies, pattern
   properties and required names; the schema's other negations are all still to be applied. *)
Theorem C55_carried : forall E fuel n x s m c s', notMerge E fuel n x s = Ok ((m, c), s') -> pErrs s' = pErrs s ->
  sRef m = sRef n /\ sId m = sId n /\ sDefs m = sDefs n /\ sDefinitions m = sDefinitions n /\ sAnyOf m = sAnyOf n /\ sOneOf m = sOneOf n /\
  sIf m = sIf n /\ sThen m = sThen n /\ sElse m = sElse n /\ sMergedIf m = sMergedIf n /\
  sDependentRequired m = sDependentRequired n /\ sDependentSchemas m = sDependentSchemas n /\
  sPatternProperties m = sPatternProperties n /\ sRequired m = sRequired n /\
  forall y, In y (sMergedNot m) <-> In y (sMergedNot n) \/ sNot n = Some y.
Proof.
  intros E [|f] n x s m c s' H Q; [discriminate H|]. cbn [notMerge] in H.
  apply (NotKeep.notStep_runs E (notMerge E f)) in H; [|intros; apply st_notMerge|exact Q]. destruct H as (m1 & m2 & m3 & m4 & m5 & m6 & S & ->).
  destruct S as (t & c1 & c2 & c3 & c4 & c5 & s1 & s2 & s3 & s4 & s5 & s6 & _ & _ & _ & _ & _ & _ & [H6 _] & _).
  unfold notApplyObject in H6. apply pbind_ok in H6. destruct H6 as (b & t1 & _ & H6). cbv zeta in H6.
  apply pbind_ok in H6. destruct H6 as (ps & t2 & _ & H6). apply pbind_ok in H6. destruct H6 as (u & t3 & _ & H6). apply pbind_ok in H6. destruct H6 as (ad & t4 & _ & H6).
  apply pret_ok in H6. destruct H6 as [H6 _]. apply pair_equal_spec in H6. destruct H6 as [H6 _].
  assert (A : sPatternProperties m6 = sPatternProperties n /\ sRequired m6 = sRequired n).
  { subst m6. destruct (fold_left _ _ ps); split; reflexivity. }
  destruct A as [A B]. clear H6. unfold keepFields. cbn.
  repeat (split; [first [reflexivity|exact A|exact B]|]). intros y. rewrite in_app_iff. destruct (sNot n) as [z|]; cbn [In]; split.
  - intros [Hy|[<-|[]]]; auto.
  - intros [Hy|Hy]; auto. injection Hy as <-. auto.
  - intros [Hy|[]]; auto.
  - intros [Hy|Hy]; [auto|discriminate Hy].
Qed.
Print Assumptions C55_carried.
Example C55_case_carried :
  let n := set_sIf (Some (set_sMinLength (Some 3) emptyNode)) (set_sThen (Some (set_sMaxLength (Some 9) emptyNode))
             (set_sRequired (Some ["a"]) (set_sNot (Some (set_sConst (Some (JStr "x")) emptyNode)) (typed "string" emptyNode)))) in
  match notMerge demoPE 9 n (set_sMaxLength (Some 1) emptyNode) demoP with
  | Ok ((m, _), s) => is_some (sIf m) && is_some (sThen m) && match sMergedNot m with [_] => true | _ => false end && match pErrs s with [] => true | _ => false end
  | _ => false
  end = true.
Proof. vm_compute. reflexivity. Qed.

(* End to end: n has the negated schema x.  Every value generated for n is valid against n without "not",
   and, if x decides, not valid against x. *)
Theorem C55_values_partial : forall PE GE matches formatted refers fuel d n x g s s' st v st',
  smallOptions (eOpts GE) -> sNot n = Some x -> sRef n = None -> sAllOf n = None -> sAnyOf n = None -> sOneOf n = None ->
  sMergedNot n = [] -> sConstraints n = None -> sRef x = None -> sAllOf x = None -> sNot x = None -> sMergedNot x = [] ->
  let rest := set_sNot None n in
  canMerge [rest] ->
  (forall n1 x1, mergesTo PE [rest] n1 -> mergesTo PE [emptyNode; x] x1 ->
     (exists k, keepsKeywords k n1 x1) /\ forall m, negatesTo PE n1 x1 m -> supported PE GE matches formatted refers true d m) ->
  pDepth s + Z.of_nat (S d) <= pxMaxDepth PE -> parseNode PE fuel n s = Ok (Good g, s') -> pErrs s' = [] ->
  yields GE g st v st' -> ~ emitted EvCutoff st st' -> ~ emitted EvConstraintFail st st' -> ~ emitted EvUnchecked st st' ->
  ~ emitted EvUniqueFail st st' ->
  valid matches formatted refers rest v /\ (decides GE matches formatted n x -> ~ valid matches formatted refers x v).
Proof.
  intros PE GE mt fm rf fuel d n x g s s' st v st' HO HN HR HA HY1 HO1 MN HC XR XA XN XM rest CM HK HD HP HE HY N1 N2 N3 N4.
  apply node_clean in HP; auto. destruct HP as (D1 & f' & s1 & s2 & H1 & D2 & D3 & l & Hl).
  assert (E2 : pErrs s2 = []) by (rewrite HE in Hl; symmetry in Hl; apply app_eq_nil in Hl; tauto).
  assert (ER : set_sNot None (set_sMergedNot [] n) = rest). { unfold rest. destruct n. cbn in MN. subst. reflexivity. }
  set (calm := fun a b : gst => ~ emitted EvCutoff a b /\ ~ emitted EvConstraintFail a b /\ ~ emitted EvUnchecked a b /\ ~ emitted EvUniqueFail a b).
  assert (W : forall a b a' b', calm a b -> after a a' -> after b' b -> calm a' b').
  { intros a b a' b' (M1 & M2 & M3 & M4) A B. split; [|split; [|split]]; intros E; [apply M1|apply M2|apply M3|apply M4]; eapply emitted_widen; eauto. }
  rewrite <- ER in *.
  eapply (not_rest PE GE mt fm rf true calm) with (kid := supported PE GE mt fm rf true d) (d := Z.of_nat d); eauto.
  - intros _ a b X. split; apply X.
  - intros c f0 t0 g0 t0' SC P0 E0 D0. eapply (supported_sound PE GE mt fm rf HO true calm); eauto.
    + intros a b X. apply X.
    + intros _ a b X. split; apply X.
    + intros _ a b X. apply X.
  - lia.
  - exact (conj N1 (conj N2 (conj N3 N4))).
Qed.
Print Assumptions C55_values_partial.

(* {"type": "object", "properties": {"name": {"type": "string", "minLength": 2, "maxLength": 9, "not": {"minLength": 5}},
    "secret": {"type": "string"}}, "required": ["name"], "additionalProperties": false, "not": {"required": ["secret"]}} *)
Definition long : schemaNode := set_sMinLength (Some 5) emptyNode.
Definition someName : schemaNode := set_sMinLength (Some 2) (set_sMaxLength (Some 9) (typed "string" emptyNode)).
Definition shortName : schemaNode := set_sNot (Some long) someName.
Definition leftName : schemaNode := set_sMinLength (Some 2) (set_sMaxLength (Some 4) (typed "string" emptyNode)).
Definition withSecret : schemaNode := set_sRequired (Some ["secret"]) emptyNode.
Definition personOf (props : list (string * schemaNode)) : schemaNode :=
  set_sProperties (Some props) (set_sRequired (Some ["name"]) (set_sAdditionalProperties noMore (typed "object" emptyNode))).
Definition somePerson : schemaNode := personOf [("name", shortName); ("secret", typed "string" emptyNode)].
Definition person : schemaNode := set_sNot (Some withSecret) somePerson.

Ltac merged H := destruct H as (f & s & s' & H & _); destruct f as [|[|[|[|f]]]]; vm_compute in H; try discriminate H; injection H as <- _; reflexivity.
Lemma name_rest : forall m, mergesTo demoPE [someName] m -> m = someName.
Proof. intros m H. merged H. Qed.
Lemma long_rest : forall m, mergesTo demoPE [emptyNode; long] m -> m = long.
Proof. intros m H. merged H. Qed.
Lemma person_rest : forall m, mergesTo demoPE [somePerson] m -> m = somePerson.
Proof. intros m H. merged H. Qed.
Lemma secret_rest : forall m, mergesTo demoPE [emptyNode; withSecret] m -> m = withSecret.
Proof. intros m H. merged H. Qed.
Lemma name_left : forall m, negatesTo demoPE someName long m -> m = leftName.
Proof.
  intros m (f & s & c & s' & H & _). destruct f as [|[|[|f]]]; vm_compute in H; try discriminate H; injection H as <- _ _; reflexivity.
Qed.
Lemma person_left : forall m, negatesTo demoPE somePerson withSecret m -> m = personOf [("name", shortName)].
Proof.
  intros m (f & s & c & s' & H & _). destruct f as [|[|[|f]]]; vm_compute in H; try discriminate H; injection H as <- _ _; reflexivity.
Qed.
Ltac noField := cbn; intros; match goal with H : In _ _ |- _ => cbn in H; repeat (destruct H as [H|H]; [try discriminate H|]); destruct H end.
Lemma name_keeps : keepsKeywords 1 someName long.
Proof.
  split.
  - constructor; cbn; auto; try (intros; discriminate); try (intros X; discriminate X).
    + intros [X|[]]. discriminate X.
    + intros _. split; [reflexivity|]. split; [reflexivity|]. intros a X. repeat (destruct X as [X|X]; [discriminate X|]). destruct X.
    + intros v X. repeat (destruct X as [X|X]; [first [discriminate X|injection X as <-; lia]|]). destruct X.
    + split; [discriminate|]. intros l v X. discriminate X.
    + split; [reflexivity|]. intros d X. discriminate X.
    + constructor.
    + intros X. contradiction.
  - intros a b M. destruct M as [k a b M _|i j a M|i a M|a M|d a M]; try discriminate M. destruct i; discriminate M.
Qed.
Lemma person_keeps : keepsKeywords 1 somePerson withSecret.
Proof.
  split.
  - constructor; cbn; auto; try (intros; discriminate); try (intros X; discriminate X).
    + intros [X|[]]. discriminate X.
    + intros _. split; [reflexivity|]. split; [reflexivity|]. intros a X. repeat (destruct X as [X|X]; [discriminate X|]). destruct X.
    + intros v X. repeat (destruct X as [X|X]; [first [discriminate X|injection X as <-; lia]|]). destruct X.
    + split; [discriminate|]. intros l v X. discriminate X.
    + split; [reflexivity|]. intros d X. discriminate X.
    + repeat (constructor; [cbn; intros K; repeat (destruct K as [K|K]; [discriminate K|]); exact K|]). constructor.
    + intros _ k [].
  - intros a b M. destruct M as [k a b _ M|i j a M|i a M|a M|d a M N O]; try discriminate M.
    + destruct i; discriminate M.
    + injection M as <-. discriminate N.
Qed.
Lemma alone : forall n, sAllOf n = None -> single n -> canMerge [n].
Proof.
  intros n A S. exists 1%nat.
  assert (C : concatMap conjuncts [n] = [n]).
  { cbn [concatMap]. rewrite conjuncts_eq. unfold branches. rewrite A. cbn. destruct n. cbn in A. subst. reflexivity. }
  rewrite C. apply fit_S. split; [|split].
  - intros x [<-|[]]. exact S.
  - apply FOP_cons; [apply Forall_nil|apply FOP_nil].
  - intros w. cbn [concatMap]. rewrite app_nil_r. unfold subAt, ofOption.
    destruct w; repeat match goal with |- context [match ?o with Some _ => _ | None => _ end] => destruct o end; exact Logic.I.
Qed.
Lemma name_single : single someName.
Proof. singles. Qed.
Lemma person_single : single somePerson.
Proof.
  constructor; cbn; auto; try (intros; discriminate); try (unfold finiteBounds; cbn; auto; fail).
  - repeat (constructor; [cbn; intros K; repeat (destruct K as [K|K]; [discriminate K|]); exact K|]). constructor.
  - constructor.
Qed.

Lemma name_negated : forall GE mt fm rf, supported demoPE GE mt fm rf true 2 shortName.
Proof.
  intros GE mt fm rf. do 4 right. do 7 (split; [reflexivity|]). exists long. do 5 (split; [reflexivity|]).
  split; [apply (alone someName); [reflexivity|exact name_single]|]. split.
  - do 3 right. split; [discriminate|]. intros t [<-|[]]. left. split; [reflexivity|]. left. discriminate.
  - intros n1 x1 M1 M2. apply name_rest in M1. apply long_rest in M2. subst. split; [exists 1%nat; exact name_keeps|].
    intros m M. apply name_left in M. subst m.
    apply (one_type _ _ _ _ _ _ _ _ "string"); [reflexivity|constructor; reflexivity|apply small_by; vm_compute; reflexivity|].
    split; [cbn; tauto|]. split; [intros _; cbn; discriminate|]. repeat (split; [intros X; discriminate X|]); intros X; discriminate X.
Qed.
Lemma person_supported : forall GE mt fm rf, eOpts GE = withDefaults zeroOptions -> supported demoPE GE mt fm rf true 4 person.
Proof.
  intros GE mt fm rf HO. do 4 right. do 7 (split; [reflexivity|]). exists withSecret. do 5 (split; [reflexivity|]).
  split; [apply (alone somePerson); [reflexivity|exact person_single]|]. split.
  - do 3 right. split; [discriminate|]. intros t [<-|[]]. right. right. left. split; [reflexivity|]. right. right.
    exists "secret". split; [left; reflexivity|]. intros [X|[]]. discriminate X.
  - intros n1 x1 M1 M2. apply person_rest in M1. apply secret_rest in M2. subst. split; [exists 1%nat; exact person_keeps|].
    intros m M. apply person_left in M. subst m.
    apply (one_type _ _ _ _ _ _ _ _ "object"); [reflexivity|constructor; reflexivity|apply small_by; vm_compute; reflexivity|].
    split; [cbn; tauto|]. do 4 (split; [intros X; discriminate X|]). intros _. unfold keyed. rewrite HO.
    split; [apply no_patterns; reflexivity|]. split.
    { cbn. repeat (constructor; [cbn; intros K; repeat (destruct K as [K|K]; [discriminate K|]); exact K|]). constructor. }
    split; [discriminate|]. split; [intros m X; discriminate X|]. split.
    { intros k K (i & _ & E). cbn in K. repeat (destruct K as [K|K]); subst; try destruct K; repeat (destruct E as [E|E]); cbn in E; discriminate E. }
    split; [intros k [<-|[]]; left; cbn; tauto|]. split.
    { intros _. split; [|vm_compute; intros X; discriminate X].
      cbn. repeat (constructor; [cbn; intros K; repeat (destruct K as [K|K]; [discriminate K|]); exact K|]). constructor. }
    intros c [[k K]|[[k []]|K]]; [|discriminate K]. destruct K as [K|[]]. apply pair_equal_spec in K. destruct K as [_ <-]. apply name_negated.
Qed.
Example C55_case : keepsKeywords 1 somePerson withSecret /\
  exists m c s', notMerge demoPE 5 somePerson withSecret demoP = Ok ((m, c), s') /\ pErrs s' = pErrs demoP /\
    forall matches formatted refers, valid matches formatted refers m (JObj [("name", JStr "abc")]) /\
      (forall k o, JObj [("name", JStr "abc")] = JObj o -> In k (refusedNames somePerson withSecret) -> assoc k o = None).
Proof.
  split; [exact person_keeps|].
  assert (X : match notMerge demoPE 5 somePerson withSecret demoP with Ok (_, s') => match pErrs s' with [] => true | _ => false end | _ => false end = true) by (vm_compute; reflexivity).
  destruct (notMerge demoPE 5 somePerson withSecret demoP) as [[[m c] s']| |] eqn:E; try discriminate X. destruct (pErrs s') eqn:EE; [|discriminate X].
  exists m, c, s'. split; [reflexivity|]. split; [exact EE|].
  assert (M : m = personOf [("name", shortName)]) by (apply person_left; exists 5%nat, demoP, c, s'; auto). clear E X EE. subst m.
  intros mt fm rf. split.
  - apply valid_eq. split; [|split; [|split]].
    + split; [intros _; do 6 right; split; [reflexivity|eexists; reflexivity]|]. split; [intros l X; discriminate X|]. split; [intros l X; discriminate X|].
      split; [intros l X; discriminate X|]. split; [intros z []|]. split; [intros l X; discriminate X|].
      intros o X. injection X as <-. split; [split; intros a X; discriminate X|]. intros l k X I. injection X as <-. exact I.
    + intros o X. injection X as <-. split; [|split].
      * split; [|exact Logic.I]. intros x X. injection X as <-. apply valid_eq. split; [|split; [|split]].
        -- split; [intros _; do 4 right; left; split; [reflexivity|eexists; reflexivity]|]. split; [intros l X; discriminate X|]. split; [intros l X; discriminate X|].
           split; [|split; [intros z []|split; intros l X; discriminate X]].
           intros str X. injection X as <-. split; [|split; intros p X; discriminate X]. split; intros a X; injection X as <-; cbn; lia.
        -- intros o X. discriminate X.
        -- intros o X. discriminate X.
        -- split; [exact Logic.I|]. split; [exact Logic.I|]. split; [exact Logic.I|]. split; [|split; exact Logic.I].
           intros V. apply valid_eq in V. destruct V as ((_ & _ & _ & V & _) & _). destruct (V "abc" eq_refl) as ((V1 & _) & _). specialize (V1 5 eq_refl). cbn in V1. lia.
      * exact Logic.I.
      * intros k x A N. exfalso. apply N. cbn in A. destruct (String.eqb_spec k "name"); [subst; left; reflexivity|discriminate A].
    + intros l X. discriminate X.
    + repeat (split; [exact Logic.I|]). exact Logic.I.
  - intros k o X [<-|[]]. injection X as <-. reflexivity.
Qed.
Example C47_case_negated : supported demoPE (drawing 7 3) (fun _ _ => True) (fun _ _ => True) (fun _ _ => True) true 4 person /\
  exists fuel g s' st', parseDoc demoPE fuel "file:///w/" "file:///w/doc" person = Ok (Good g, s') /\ pErrs s' = [] /\
    yields (drawing 7 3) g start (JObj [("name", JStr "ab")]) st' /\ forall e, ~ emitted e start st'.
Proof.
  split; [apply person_supported; reflexivity|].
  destruct (runDoc_ok 40 60 (drawing 7 3) person (JObj [("name", JStr "ab")]) []) as (g & s' & st' & A & B & C & D); [vm_compute; reflexivity|].
  exists 40%nat, g, s', st'. split; [exact A|]. split; [exact B|]. split; [exact C|].
  intros e (l & X & I). rewrite D in X. symmetry in X. apply app_eq_nil in X. destruct X as [-> _]. destruct I.
Qed.

(* ---- where the property is false; in each case the schema is accepted without errors and the value shown
   is generated without any event ---- *)
Definition generates (n : schemaNode) (v : json) : Prop :=
  exists fuel GE g s' st', parseDoc demoPE fuel "file:///w/" "file:///w/doc" n = Ok (Good g, s') /\ pErrs s' = [] /\ yields GE g start v st' /\ gLog st' = [].
Lemma generates_by : forall k1 k2 a b n v, runDoc k1 k2 (drawing a b) n = Some (v, [], []) -> generates n v.
Proof. intros k1 k2 a b n v H. destruct (runDoc_ok _ _ _ _ _ _ H) as (g & s' & st' & A & B & C & D). exists k1, (drawing a b), g, s', st'. auto. Qed.

(* {"type": "object", "properties": {"a": {"const": "1"}}, "additionalProperties": false, "not": {"properties": {"b": {"type": "string"}}}}
   yields {"b": [null]}: the negated property becomes a declared one *)
Theorem C55_additional_refuted :
  let n := set_sNot (Some (set_sProperties (Some [("b", typed "string" emptyNode)]) emptyNode))
             (set_sProperties (Some [("a", isConst "1")]) (set_sAdditionalProperties noMore (typed "object" emptyNode))) in
  generates n (JObj [("b", JArr [JNull])]) /\ forall matches formatted refers, ~ valid matches formatted refers (set_sNot None n) (JObj [("b", JArr [JNull])]).
Proof.
  cbv zeta. split; [apply (generates_by 40 60 1 0); vm_compute; reflexivity|].
  intros mt fm rf V. apply valid_eq in V. destruct V as (_ & V & _). destruct (V _ eq_refl) as (_ & _ & V3).
  destruct (V3 "b" (JArr [JNull]) eq_refl) as [X _]; [|intros p []|discriminate X]. cbn. intros [X|[]]. discriminate X.
Qed.
Print Assumptions C55_additional_refuted.

(* {"type": "array", "items": [{"const": "1"}], "additionalItems": {"const": "2"}, "not": {"maxItems": 1}} yields [null, null] *)
Theorem C55_items_refuted :
  let n := set_sNot (Some (set_sMaxItems (Some 1) emptyNode))
             (set_sItems (Some (mkItems None (Some [isConst "1"]) false)) (set_sAdditionalItems (moreAre (isConst "2")) (typed "array" emptyNode))) in
  generates n (JArr [JNull; JNull]) /\ forall matches formatted refers, ~ valid matches formatted refers (set_sNot None n) (JArr [JNull; JNull]).
Proof.
  cbv zeta. split; [apply (generates_by 40 60 1 0); vm_compute; reflexivity|].
  intros mt fm rf V. apply valid_eq in V. destruct V as (_ & _ & V & _). destruct (V _ eq_refl) as (_ & (V1 & _) & _). cbn in V1.
  destruct (V1 eq_refl) as [V2 _]. destruct V2 as ((_ & _ & C & _) & _). specialize (C (JStr "1") eq_refl). inversion C. match goal with H : numberValue _ _ |- _ => destruct H end.
Qed.
Print Assumptions C55_items_refuted.

(* {"type": "object", "properties": {"a": {"allOf": [{"minLength": 5}], "type": "string"}}, "required": ["a"],
    "not": {"properties": {"a": {"maxLength": 1}}}} yields {"a": "ab"}: the allOf of the property is lost *)
Theorem C55_allOf_refuted :
  let n := set_sNot (Some (set_sProperties (Some [("a", set_sMaxLength (Some 1) emptyNode)]) emptyNode))
             (set_sProperties (Some [("a", set_sAllOf (Some [set_sMinLength (Some 5) emptyNode]) (typed "string" emptyNode))]) (set_sRequired (Some ["a"]) (typed "object" emptyNode))) in
  generates n (JObj [("a", JStr "ab")]) /\ forall matches formatted refers, ~ valid matches formatted refers (set_sNot None n) (JObj [("a", JStr "ab")]).
Proof.
  cbv zeta. split; [apply (generates_by 40 60 1 0); vm_compute; reflexivity|].
  intros mt fm rf V. apply valid_eq in V. destruct V as (_ & V & _). destruct (V _ eq_refl) as ((V1 & _) & _). specialize (V1 (JStr "ab") eq_refl).
  apply valid_eq in V1. destruct V1 as (_ & _ & _ & (V1 & _) & _). apply valid_eq in V1. destruct V1 as ((_ & _ & _ & V2 & _) & _).
  destruct (V2 "ab" eq_refl) as ((V3 & _) & _). specialize (V3 5 eq_refl). cbn in V3. lia.
Qed.
Print Assumptions C55_allOf_refuted.
