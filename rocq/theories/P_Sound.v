(* C47: what is generated is valid. *)
From Coq Require Import ZArith Reals List String Bool Lia Lra.
From Flocq Require Import Core BinarySingleNaN.
From Verif Require Import Base Float64 Json Schema Util Options Number Gen GenInv PState RefPath Merge Parse PFacts ParseKeep.
From Verif Require Import MergeFacts MergeProps MergeValid SpecMerge SpecNumber SpecSchema SpecRun SpecFragment ValueProps Terminate ParseEnds Sound NumberRefute ValueDemo.
From Verif Require P_Parse.
Import ListNotations.
Open Scope string_scope.
Open Scope Z_scope.

Lemma doc_sound : forall PE GE mt fm rf neg (calm : gst -> gst -> Prop) fuel parsing rootId d n g s' st v st',
  smallOptions (eOpts GE) -> (forall a b, calm a b -> ~ emitted EvCutoff a b) -> (forall a b a' b', calm a b -> after a a' -> after b' b -> calm a' b') ->
  (neg = true -> forall a b, calm a b -> ~ emitted EvConstraintFail a b /\ ~ emitted EvUnchecked a b) ->
  (neg = true -> forall a b, calm a b -> ~ emitted EvUniqueFail a b) ->
  supported PE GE mt fm rf neg d n -> Z.of_nat d <= pxMaxDepth PE ->
  parseDoc PE fuel parsing rootId n = Ok (Good g, s') -> pErrs s' = [] -> yields GE g st v st' -> calm st st' -> valid mt fm rf n v.
Proof.
  intros PE GE mt fm rf neg calm fuel parsing rootId d n g s' st v st' HO HC HW HN HU HS HD H HE HY NC.
  unfold parseDoc in H. apply pbind_ok in H. destruct H as (r & s1 & H1 & H). apply pbind_ok in H. destruct H as ([] & s2 & H2 & H).
  apply pret_ok in H. destruct H as [<- ->]. apply P_Parse.drain_deep in H2. destruct H2 as [_ [l Hl]].
  assert (E1 : pErrs s1 = []) by (rewrite HE in Hl; symmetry in Hl; apply app_eq_nil in Hl; tauto).
  unfold parseRoot in H1. apply pbind_ok in H1. destruct H1 as (u1 & t1 & K1 & H1). apply pbind_ok in H1. destruct H1 as (u2 & t2 & K2 & H1).
  apply st_parseDefs in K1, K2.
  assert (D : pDepth t2 = 0) by (rewrite (kDepth _ _ _ K2), (kDepth _ _ _ K1); reflexivity).
  eapply (supported_sound PE GE mt fm rf HO neg calm HC HW HN HU d n HS fuel t2 g s1 H1 E1); eauto. lia.
Qed.

(* Every value generated for a schema of the fragment (SpecFragment.v) without negations, parsed without
   errors and nested no deeper than the maximum parse depth, is valid against the schema, unless a generator
   gave up at the cutoff.  Missing from the full statement: references (C47_references_partial), not (the next theorem), if and
   oneOf with several branches (P_Conditional.v, at the root only), the corners SpecFragment.v leaves out and the keywords it does not mention. *)
Theorem C47_valid_partial : forall PE GE matches formatted refers fuel parsing rootId d n g s' st v st',
  smallOptions (eOpts GE) -> supported PE GE matches formatted refers false d n -> Z.of_nat d <= pxMaxDepth PE ->
  parseDoc PE fuel parsing rootId n = Ok (Good g, s') -> pErrs s' = [] ->
  yields GE g st v st' -> ~ emitted EvCutoff st st' ->
  valid matches formatted refers n v.
Proof.
  intros PE GE mt fm rf fuel parsing rootId d n g s' st v st' HO HS HD H HE HY NC.
  eapply (doc_sound PE GE mt fm rf false (fun a b => ~ emitted EvCutoff a b)); eauto.
  - intros a b a' b' NE A B E. apply NE. eapply emitted_widen; eauto.
  - intros X. discriminate X.
  - intros X. discriminate X.
Qed.
Print Assumptions C47_valid_partial.

(* The same with negations (SpecNegate.v says which) and uniqueItems, unless a generator gave up at the cutoff, no value
   respecting the negation or no further element was found, or the check of the negation was left out for lack of steps. *)
Theorem C47_negated_partial : forall PE GE matches formatted refers fuel parsing rootId d n g s' st v st',
  smallOptions (eOpts GE) -> supported PE GE matches formatted refers true d n -> Z.of_nat d <= pxMaxDepth PE ->
  parseDoc PE fuel parsing rootId n = Ok (Good g, s') -> pErrs s' = [] ->
  yields GE g st v st' -> ~ emitted EvCutoff st st' -> ~ emitted EvConstraintFail st st' -> ~ emitted EvUnchecked st st' ->
  ~ emitted EvUniqueFail st st' ->
  valid matches formatted refers n v.
Proof.
  intros PE GE mt fm rf fuel parsing rootId d n g s' st v st' HO HS HD H HE HY N1 N2 N3 N4.
  eapply (doc_sound PE GE mt fm rf true (fun a b => ~ emitted EvCutoff a b /\ ~ emitted EvConstraintFail a b /\ ~ emitted EvUnchecked a b /\ ~ emitted EvUniqueFail a b)); eauto.
  - intros a b X. apply X.
  - intros a b a' b' (M1 & M2 & M3 & M4) A B. split; [|split; [|split]]; intros E; [apply M1|apply M2|apply M3|apply M4]; eapply emitted_widen; eauto.
  - intros _ a b X. split; apply X.
  - intros _ a b X. apply X.
Qed.
Print Assumptions C47_negated_partial.

(* {"type": "object", "properties": {"id": {"type": "integer", "minimum": 1, "maximum": 9},
    "tags": {"type": "array", "items": {"type": "string", "minLength": 2}, "minItems": 1, "maxItems": 3},
    "kind": {"enum": ["a", "b"]}, "note": {"type": ["string", "null"]}}, "required": ["id", "kind"], "additionalProperties": false} *)
Definition recordSchema : schemaNode :=
  let id := set_sMinimum (Some (fofZ 1)) (set_sMaximum (Some (fofZ 9)) (typed "integer" emptyNode)) in
  let tags := set_sItems (itemsAre (set_sMinLength (Some 2) (typed "string" emptyNode))) (set_sMinItems (Some 1) (set_sMaxItems (Some 3) (typed "array" emptyNode))) in
  let kind := set_sEnum (Some [JStr "a"; JStr "b"]) emptyNode in
  let note := set_sType (Some (mkMT "" (Some ["string"; "null"]))) emptyNode in
  set_sProperties (Some [("id", id); ("tags", tags); ("kind", kind); ("note", note)])
    (set_sRequired (Some ["id"; "kind"]) (set_sAdditionalProperties noMore (typed "object" emptyNode))).


Lemma string_only : forall PE GE mt fm rf b kid n, sPattern n = None -> sFormat n = None -> sMaxLength n = None -> usesOnly PE GE mt fm rf b kid "string" n.
Proof.
  intros PE GE mt fm rf b kid n A B C. split; [cbn; tauto|]. split; [|repeat (split; [intros X; discriminate X|]); intros X; discriminate X].
  intros _. unfold textual. rewrite A, B, C. discriminate.
Qed.
Lemma null_only : forall PE GE mt fm rf b kid n, usesOnly PE GE mt fm rf b kid "null" n.
Proof. intros. split; [cbn; tauto|]. repeat (split; [intros X; discriminate X|]); intros X; discriminate X. Qed.
Lemma integer_only : forall PE GE mt fm rf b kid n, keywordsWithin (IZR (2 ^ 50)) (IZR (2 ^ 40)) n -> sMultipleOf n = None -> usesOnly PE GE mt fm rf b kid "integer" n.
Proof.
  intros PE GE mt fm rf b kid n H E. split; [cbn; tauto|]. split; [intros X; discriminate X|]. split; [intros X; discriminate X|].
  split; [|split; intros X; discriminate X]. intros _. split; [exact H|]. intros m X. rewrite E in X. discriminate.
Qed.
Lemma one_type : forall PE GE mt fm rf b d n t, sType n = Some (mkMT t None) -> plain n -> smallSizes n -> usesOnly PE GE mt fm rf b (supported PE GE mt fm rf b d) t n ->
  supported PE GE mt fm rf b (S d) n.
Proof.
  intros PE GE mt fm rf b d n t T P S U. cbn [supported]. left. right. right. split; [exact S|]. split; [exact P|]. rewrite T. split; [|intros x ts X; discriminate X].
  intros t' [<-|[]]. exact U.
Qed.

Lemma no_patterns : forall GE mt n, sPatternProperties n = None -> separate GE mt n.
Proof.
  intros GE mt n E. unfold separate. rewrite E. cbn. split; [constructor|]. split; [intros p d k []|]. split; [intros p k []|]. intros X. contradiction.
Qed.

Lemma record_supported : forall GE, eOpts GE = withDefaults zeroOptions -> supported demoPE GE (fun _ _ => True) (fun _ _ => True) (fun _ _ => True) false 3 recordSchema.
Proof.
  intros GE HO. apply (one_type _ _ _ _ _ _ _ _ "object"); [reflexivity|constructor; reflexivity|apply small_by; vm_compute; reflexivity|].
  split; [cbn; tauto|]. do 4 (split; [intros X; discriminate X|]). intros _.
  unfold keyed. rewrite HO.
  split; [apply no_patterns; reflexivity|]. split.
  { cbn. repeat (constructor; [cbn; intros K; repeat (destruct K as [K|K]; [discriminate K|]); exact K|]). constructor. }
  split; [discriminate|]. split; [intros m X; discriminate X|]. split.
  { intros k K (i & _ & E). cbn in K. repeat (destruct K as [K|K]); subst; try destruct K; repeat (destruct E as [E|E]); cbn in E; discriminate E. }
  split; [intros k [<-|[<-|[]]]; left; cbn; tauto|]. split.
  { intros _. split; [|vm_compute; intros X; discriminate X].
    cbn. repeat (constructor; [cbn; intros K; repeat (destruct K as [K|K]; [discriminate K|]); exact K|]). constructor. }
  intros c [[k K]|[[k []]|K]]; [|discriminate K]. cbn [recordSchema] in K. destruct K as [K|[K|[K|[K|[]]]]]; apply pair_equal_spec in K; destruct K as [_ <-].
  - apply (one_type _ _ _ _ _ _ _ _ "integer"); [reflexivity|constructor; reflexivity|apply small_by; vm_compute; reflexivity|].
    apply integer_only; [|reflexivity]. unfold keywordsWithin.
    change (sMinimum _) with (Some (fofZ 1)). change (sMaximum _) with (Some (fofZ 9)).
    split; [split; [apply (fofZ_F 1); lia|rewrite (fofZ_B 1) by lia; rewrite <- abs_IZR; apply IZR_le; lia]|].
    split; [split; [apply (fofZ_F 9); lia|rewrite (fofZ_B 9) by lia; rewrite <- abs_IZR; apply IZR_le; lia]|].
    split; [exact I|split; [exact I|exact I]].
  - apply (one_type _ _ _ _ _ _ _ _ "array"); [reflexivity|constructor; reflexivity|apply small_by; vm_compute; reflexivity|].
    split; [cbn; tauto|]. do 3 (split; [intros X; discriminate X|]). split; [|intros X; discriminate X]. intros _. unfold sequential. rewrite HO.
    split; [reflexivity|]. split; [reflexivity|]. split; [intros X; discriminate X|]. split; [reflexivity|]. split; [intros c0 X; discriminate X|].
    split; [discriminate|]. split; [intros m X; injection X as <-; vm_compute; discriminate|]. split; [intros e X; injection X as <-; reflexivity|].
    split; [intros X; discriminate X|]. intros c [[]|X]. injection X as <-.
    apply (one_type _ _ _ _ _ _ _ _ "string"); [reflexivity|constructor; reflexivity|apply small_by; vm_compute; reflexivity|apply string_only; reflexivity].
  - left. left. split; [constructor; reflexivity|]. eexists. split; [reflexivity|]. split; [discriminate|].
    intros x [<-|[<-|[]]]; cbn; unfold okFlat, okType, okEnum, okConst, okString, okNumber, okArray, okObject, okRange, okBounds, okMultipleOf; cbn;
      (split; [|repeat split; intros ? X; discriminate X]); (split; [exact I|]);
      (split; [intros l X; injection X as <-; eexists; split; [|apply jeq_str]; cbn; tauto|]);
      repeat split; intros; try discriminate; match goal with H : numberValue _ _ |- _ => inversion H end.
  - left. right. right. split; [apply small_by; vm_compute; reflexivity|]. split; [constructor; reflexivity|]. split.
    + intros t [<-|[<-|[]]]; [apply string_only; reflexivity|apply null_only].
    + intros x ts X t T. injection X as <- <-.
      assert (K : okN (parseNode demoPE 10 (withType t (set_sType (Some (mkMT "" (Some ["string"; "null"]))) emptyNode)) demoP) = true)
        by (destruct T as [<-|[<-|[]]]; vm_compute; reflexivity).
      apply okN_ex in K. destruct K as (g & s' & K & _). exists g, 10%nat, demoP, s'. exact K.
Qed.

(* parse a document, then generate once *)
Definition runDoc (k1 k2 : nat) (GE : env) (n : schemaNode) : option (json * list event * list ((string * string) * string)) :=
  match parseDoc demoPE k1 "file:///w/" "file:///w/doc" n with
  | Ok (Good g, s) => match generate GE k2 g start with Ok (v, st) => Some (v, gLog st, pErrs s) | _ => None end
  | _ => None
  end.
Lemma runDoc_ok : forall k1 k2 GE n v l, runDoc k1 k2 GE n = Some (v, l, []) ->
  exists g s' st', parseDoc demoPE k1 "file:///w/" "file:///w/doc" n = Ok (Good g, s') /\ pErrs s' = [] /\ yields GE g start v st' /\ gLog st' = l.
Proof.
  intros k1 k2 GE n v l H. unfold runDoc in H. destruct (parseDoc _ _ _ _ _) as [[[g|] s]| |]; try discriminate.
  destruct (generate GE k2 g start) as [[w st]| |] eqn:G; try discriminate.
  assert (E : w = v /\ gLog st = l /\ pErrs s = []) by (injection H as H1 H2 H3; auto). destruct E as (-> & E1 & E2).
  exists g, s, st. split; [reflexivity|]. split; [exact E2|]. split; [exists k2; exact G|exact E1].
Qed.
Lemma quiet : forall st', gLog st' = [] -> ~ emitted EvCutoff start st'.
Proof. intros st' E (l & X & I). rewrite E in X. symmetry in X. apply app_eq_nil in X. destruct X as [-> _]. destruct I. Qed.


Example C47_case : supported demoPE (drawing 7 3) (fun _ _ => True) (fun _ _ => True) (fun _ _ => True) false 3 recordSchema /\
  exists fuel g s' st', parseDoc demoPE fuel "file:///w/" "file:///w/doc" recordSchema = Ok (Good g, s') /\ pErrs s' = [] /\
    yields (drawing 7 3) g start (JObj [("id", JInt 1); ("kind", JStr "b"); ("tags", JArr [JStr "ab"]); ("note", JNull)]) st' /\ ~ emitted EvCutoff start st'.
Proof.
  split; [apply record_supported; reflexivity|].
  destruct (runDoc_ok 30 60 (drawing 7 3) recordSchema (JObj [("id", JInt 1); ("kind", JStr "b"); ("tags", JArr [JStr "ab"]); ("note", JNull)]) []) as (g & s' & st' & A & B & C & D);
    [vm_compute; reflexivity|].
  exists 30%nat, g, s', st'. split; [exact A|]. split; [exact B|]. split; [exact C|exact (quiet st' D)].
Qed.

(* {"type": "array", "items": {"enum": ["a", "b", "c"]}, "uniqueItems": true, "minItems": 2, "maxItems": 3}, with draws 0, 1, 2, ... *)
Definition lettersNode : schemaNode :=
  set_sUniqueItems (Some true) (set_sItems (itemsAre (set_sEnum (Some [JStr "a"; JStr "b"; JStr "c"]) emptyNode))
    (set_sMinItems (Some 2) (set_sMaxItems (Some 3) (typed "array" emptyNode)))).
Definition counting : env :=
  mkEnv (withDefaults zeroOptions) [] (fun i => Z.of_nat i) (fun _ => 3)
    (fun _ => "ab") (fun _ _ => "x") (fun _ _ => Ok "r") demoValid (fun _ _ => false) (fun _ _ => false).
Lemma letter_valid : forall mt fm rf x, In x [JStr "a"; JStr "b"; JStr "c"] ->
  valid mt fm rf (set_sEnum (Some [JStr "a"; JStr "b"; JStr "c"]) emptyNode) x.
Proof.
  intros mt fm rf x H. assert (exists s, x = JStr s) by (destruct H as [<-|[<-|[<-|[]]]]; eauto). destruct H0 as [s ->].
  apply valid_eq. cbn. unfold okFlat, okType, okEnum, okConst, okString, okNumber, okArray, okObject, okRange, okBounds, okMultipleOf. cbn.
  (split; [|repeat split; intros ? X; discriminate X]); (split; [exact I|]).
  split; [intros l X; injection X as <-; exists (JStr s); split; [exact H|apply jeq_str]|].
  repeat split; intros; try discriminate; match goal with H : numberValue _ _ |- _ => inversion H end.
Qed.
Lemma letters_supported : forall GE mt fm rf, eOpts GE = withDefaults zeroOptions -> supported demoPE GE mt fm rf true 2 lettersNode.
Proof.
  intros GE mt fm rf HO. apply (one_type _ _ _ _ _ _ _ _ "array"); [reflexivity|constructor; reflexivity|apply small_by; vm_compute; reflexivity|].
  split; [cbn; tauto|]. do 3 (split; [intros X; discriminate X|]). split; [|intros X; discriminate X]. intros _. unfold sequential. rewrite HO.
  split; [reflexivity|]. split; [reflexivity|]. split.
  { intros _. split; [reflexivity|]. split; [reflexivity|]. split; [reflexivity|]. eexists. split; [reflexivity|]. left.
    assert (K : forall v, valid mt fm rf (set_sEnum (Some [JStr "a"; JStr "b"; JStr "c"]) emptyNode) v -> exists s, v = JStr s).
    { intros v V. apply valid_eq in V. destruct V as ((_ & V & _) & _). destruct (V _ eq_refl) as (x & X & E). cbn in X.
      destruct X as [<-|[<-|[<-|[]]]]; inversion E; subst; eauto; match goal with H : numberValue (JStr _) _ |- _ => destruct H end. }
    intros a b Va Vb E. destruct (K a Va) as [s ->], (K b Vb) as [t ->]. inversion E; subst; [match goal with H : numberValue (JStr _) _ |- _ => destruct H end|reflexivity]. }
  split; [reflexivity|]. split; [intros c0 X; discriminate X|].
  split; [discriminate|]. split; [intros m X; injection X as <-; vm_compute; discriminate|]. split; [intros e X; injection X as <-; reflexivity|].
  split; [intros X; discriminate X|]. intros c [[]|X]. injection X as <-.
  left. left. split; [constructor; reflexivity|]. eexists. split; [reflexivity|]. split; [discriminate|]. intros x X. apply letter_valid. exact X.
Qed.
Example C47_case_unique : supported demoPE counting (fun _ _ => True) (fun _ _ => True) (fun _ _ => True) true 2 lettersNode /\
  exists fuel g s' st', parseDoc demoPE fuel "file:///w/" "file:///w/doc" lettersNode = Ok (Good g, s') /\ pErrs s' = [] /\
    yields counting g start (JArr [JStr "b"; JStr "c"]) st' /\ forall e, ~ emitted e start st'.
Proof.
  split; [apply letters_supported; reflexivity|].
  destruct (runDoc_ok 40 60 counting lettersNode (JArr [JStr "b"; JStr "c"]) []) as (g & s' & st' & A & B & C & D); [vm_compute; reflexivity|].
  exists 40%nat, g, s', st'. split; [exact A|]. split; [exact B|]. split; [exact C|].
  intros e (l & X & I). rewrite D in X. symmetry in X. apply app_eq_nil in X. destruct X as [-> _]. destruct I.
Qed.

(* {"type": "array", "items": {"type": "integer", "minimum": 0, "maximum": 9}, "uniqueItems": true, "minItems": 2, "maxItems": 3} *)
Definition digitNode : schemaNode := set_sMinimum (Some (fofZ 0)) (set_sMaximum (Some (fofZ 9)) (typed "integer" emptyNode)).
Definition digitsNode : schemaNode :=
  set_sUniqueItems (Some true) (set_sItems (itemsAre digitNode) (set_sMinItems (Some 2) (set_sMaxItems (Some 3) (typed "array" emptyNode)))).
Lemma digits_supported : forall GE mt fm rf, eOpts GE = withDefaults zeroOptions -> supported demoPE GE mt fm rf true 2 digitsNode.
Proof.
  intros GE mt fm rf HO. apply (one_type _ _ _ _ _ _ _ _ "array"); [reflexivity|constructor; reflexivity|apply small_by; vm_compute; reflexivity|].
  split; [cbn; tauto|]. do 3 (split; [intros X; discriminate X|]). split; [|intros X; discriminate X]. intros _. unfold sequential. rewrite HO.
  split; [reflexivity|]. split; [reflexivity|]. split.
  { intros _. split; [reflexivity|]. split; [reflexivity|]. split; [reflexivity|]. exists digitNode. split; [reflexivity|]. right.
    split; [constructor; reflexivity|left; reflexivity]. }
  split; [reflexivity|]. split; [intros c0 X; discriminate X|].
  split; [discriminate|]. split; [intros m X; injection X as <-; vm_compute; discriminate|]. split; [intros e X; injection X as <-; reflexivity|].
  split; [intros X; discriminate X|]. intros c [[]|X].
  assert (E : digitNode = c) by (apply (f_equal (fun o => get_or o emptyNode)) in X; exact X). rewrite <- E. clear X E c.
  apply (one_type _ _ _ _ _ _ _ _ "integer"); [reflexivity|constructor; reflexivity|apply small_by; vm_compute; reflexivity|].
  apply integer_only; [|reflexivity]. unfold keywordsWithin.
  change (sMinimum _) with (Some (fofZ 0)). change (sMaximum _) with (Some (fofZ 9)).
  split; [split; [apply (fofZ_F 0); lia|rewrite (fofZ_B 0) by lia; rewrite <- abs_IZR; apply IZR_le; lia]|].
  split; [split; [apply (fofZ_F 9); lia|rewrite (fofZ_B 9) by lia; rewrite <- abs_IZR; apply IZR_le; lia]|].
  split; [exact I|split; [exact I|exact I]].
Qed.
Definition spread : env :=
  mkEnv (withDefaults zeroOptions) [] (fun i => nth i [1; 0; 0; 0; 2 ^ 61] 7) (fun _ => 3)
    (fun _ => "ab") (fun _ _ => "x") (fun _ _ => Ok "r") demoValid (fun _ _ => false) (fun _ _ => false).
(* the first value offered for the second place is 0 again *)
Example C47_case_digits : supported demoPE spread (fun _ _ => True) (fun _ _ => True) (fun _ _ => True) true 2 digitsNode /\
  exists fuel g s' st', parseDoc demoPE fuel "file:///w/" "file:///w/doc" digitsNode = Ok (Good g, s') /\ pErrs s' = [] /\
    yields spread g start (JArr [JInt 0; JInt 2]) st' /\ forall e, ~ emitted e start st'.
Proof.
  split; [apply digits_supported; reflexivity|].
  destruct (runDoc_ok 40 60 spread digitsNode (JArr [JInt 0; JInt 2]) []) as (g & s' & st' & A & B & C & D); [vm_compute; reflexivity|].
  exists 40%nat, g, s', st'. split; [exact A|]. split; [exact B|]. split; [exact C|].
  intros e (l & X & I). rewrite D in X. symmetry in X. apply app_eq_nil in X. destruct X as [-> _]. destruct I.
Qed.

(* {"allOf": [{"type": "string", "minLength": 2}, {"maxLength": 5}]}, {"anyOf": [{"type": "string"}, {"type": "null"}], "minLength": 3}
   and {"oneOf": [{"type": "boolean"}]} *)
Definition longEnough := set_sMinLength (Some 2) (typed "string" emptyNode).
Definition shortEnough := set_sMaxLength (Some 5) emptyNode.
Definition nameNode : schemaNode := set_sAllOf (Some [longEnough; shortEnough]) emptyNode.
Definition noteNode : schemaNode := set_sAnyOf (Some [typed "string" emptyNode; typed "null" emptyNode]) (set_sMinLength (Some 3) emptyNode).
Definition flagNode : schemaNode := set_sOneOf (Some [typed "boolean" emptyNode]) emptyNode.

Lemma name_merged : forall m, mergesTo demoPE [longEnough; shortEnough; emptyNode] m -> m = set_sMinLength (Some 2) (set_sMaxLength (Some 5) (typed "string" emptyNode)).
Proof.
  intros m (f & s & s' & H & _). destruct f as [|[|[|f]]]; vm_compute in H; try discriminate H; injection H as <- _; reflexivity.
Qed.
Lemma note_base : forall m, mergesTo demoPE [noteNode] m -> m = noteNode.
Proof.
  intros m (f & s & s' & H & _). destruct f as [|[|[|f]]]; vm_compute in H; try discriminate H; injection H as <- _; reflexivity.
Qed.
Lemma note_merged : forall t m, In t ["string"; "null"] -> mergesTo demoPE [set_sAnyOf None noteNode; typed t emptyNode] m -> m = set_sMinLength (Some 3) (typed t emptyNode).
Proof.
  intros t m T (f & s & s' & H & _). destruct T as [<-|[<-|[]]]; destruct f as [|[|[|f]]]; vm_compute in H; try discriminate H; injection H as <- _; reflexivity.
Qed.
Lemma flag_base : forall m, mergesTo demoPE [flagNode] m -> m = flagNode.
Proof.
  intros m (f & s & s' & H & _). destruct f as [|[|[|f]]]; vm_compute in H; try discriminate H; injection H as <- _; reflexivity.
Qed.
Lemma flag_merged : forall m, mergesTo demoPE [set_sOneOf None flagNode; typed "boolean" emptyNode] m -> m = typed "boolean" emptyNode.
Proof.
  intros m (f & s & s' & H & _). destruct f as [|[|[|f]]]; vm_compute in H; try discriminate H; injection H as <- _; reflexivity.
Qed.
Ltac singles := constructor; cbn; auto; try (intros; discriminate); try (repeat constructor; simpl; intuition congruence); try (unfold finiteBounds; cbn; auto; fail).
Ltac agrees := constructor; unfold sameIfBoth, notBoth, covers; cbn; auto; try (intros; discriminate); try (split; intros; congruence).
Ltac fits := exists 1%nat; apply fit_S; split; [|split];
  [intros ? I; cbn in I; repeat (destruct I as [<-|I]; [singles|]); destruct I
  |cbn; repeat first [apply FOP_nil | apply FOP_cons | apply Forall_nil | apply Forall_cons]; agrees
  |intros [k|k|[|i]| | |]; exact Logic.I].
Lemma name_can : canMerge [longEnough; shortEnough; emptyNode].
Proof. fits. Qed.
Lemma note_can : canMerge [noteNode].
Proof. fits. Qed.
Lemma note_can' : forall t, In t ["string"; "null"] -> canMerge [set_sAnyOf None noteNode; typed t emptyNode].
Proof. intros t [<-|[<-|[]]]; fits. Qed.
Lemma flag_can : canMerge [flagNode].
Proof. fits. Qed.
Lemma flag_can' : canMerge [set_sOneOf None flagNode; typed "boolean" emptyNode].
Proof. fits. Qed.
Lemma boolean_only : forall PE GE mt fm rf b kid n, usesOnly PE GE mt fm rf b kid "boolean" n.
Proof. intros. split; [cbn; tauto|]. repeat (split; [intros X; discriminate X|]); intros X; discriminate X. Qed.

Lemma name_supported : forall GE mt fm rf neg, supported demoPE GE mt fm rf neg 2 nameNode.
Proof.
  intros GE mt fm rf neg. right. left. split; [reflexivity|]. split; [reflexivity|]. eexists. split; [reflexivity|]. split; [exact name_can|].
  intros m M. apply name_merged in M. subst m. apply (one_type _ _ _ _ _ _ _ _ "string"); [reflexivity|constructor; reflexivity|apply small_by; vm_compute; reflexivity|].
  split; [cbn; tauto|]. split; [intros _; cbn; discriminate|]. repeat (split; [intros X; discriminate X|]); intros X; discriminate X.
Qed.
Lemma note_supported : forall GE mt fm rf neg, supported demoPE GE mt fm rf neg 2 noteNode.
Proof.
  intros GE mt fm rf neg. right. right. left. do 4 (split; [reflexivity|]). split; [exact note_can|]. eexists. split; [reflexivity|].
  intros b base B M. apply note_base in M. subst base.
  destruct B as [<-|[<-|[]]]; (split; [apply note_can'; cbn; tauto|]); intros m M; (apply note_merged in M; [|cbn; tauto]); subst m.
  - apply (one_type _ _ _ _ _ _ _ _ "string"); [reflexivity|constructor; reflexivity|apply small_by; vm_compute; reflexivity|apply string_only; reflexivity].
  - apply (one_type _ _ _ _ _ _ _ _ "null"); [reflexivity|constructor; reflexivity|apply small_by; vm_compute; reflexivity|apply null_only].
Qed.
Lemma flag_supported : forall GE mt fm rf neg, supported demoPE GE mt fm rf neg 2 flagNode.
Proof.
  intros GE mt fm rf neg. do 3 right. left. do 4 (split; [reflexivity|]). split; [exact flag_can|]. eexists. split; [reflexivity|].
  intros base M. apply flag_base in M. subst base. split; [apply flag_can'|]. intros m M. apply flag_merged in M. subst m.
  apply (one_type _ _ _ _ _ _ _ _ "boolean"); [reflexivity|constructor; reflexivity|apply small_by; vm_compute; reflexivity|apply boolean_only].
Qed.

(* {"type": "array", "items": {"type": "string", "minLength": 2}, "contains": {"maxLength": 5}, "minItems": 2, "maxItems": 3} *)
Definition wordsNode : schemaNode :=
  set_sContains (Some shortEnough) (set_sItems (itemsAre longEnough) (set_sMinItems (Some 2) (set_sMaxItems (Some 3) (typed "array" emptyNode)))).
Lemma words_can : canMerge [longEnough; shortEnough].
Proof. fits. Qed.
Lemma words_merged : forall m, mergesTo demoPE [longEnough; shortEnough] m -> m = set_sMinLength (Some 2) (set_sMaxLength (Some 5) (typed "string" emptyNode)).
Proof.
  intros m (f & s & s' & H & _). destruct f as [|[|[|f]]]; vm_compute in H; try discriminate H; injection H as <- _; reflexivity.
Qed.
Lemma words_supported : forall GE mt fm rf b, eOpts GE = withDefaults zeroOptions -> supported demoPE GE mt fm rf b 2 wordsNode.
Proof.
  intros GE mt fm rf b HO. apply (one_type _ _ _ _ _ _ _ _ "array"); [reflexivity|constructor; reflexivity|apply small_by; vm_compute; reflexivity|].
  split; [cbn; tauto|]. do 3 (split; [intros X; discriminate X|]). split; [|intros X; discriminate X]. intros _. unfold sequential. rewrite HO.
  split; [reflexivity|]. split; [reflexivity|]. split; [intros X; discriminate X|]. split; [reflexivity|]. split.
  { intros c X. injection X as <-. split; [reflexivity|]. cbn [itemsNode wordsNode]. split; [exact words_can|].
    intros m M. apply words_merged in M. subst m. split; [reflexivity|].
    apply (one_type _ _ _ _ _ _ _ _ "string"); [reflexivity|constructor; reflexivity|apply small_by; vm_compute; reflexivity|].
    split; [cbn; tauto|]. split; [intros _; cbn; discriminate|]. repeat (split; [intros X; discriminate X|]); intros X; discriminate X. }
  split; [discriminate|]. split; [intros m X; injection X as <-; vm_compute; discriminate|]. split; [intros e X; injection X as <-; reflexivity|].
  split; [intros X; discriminate X|]. intros c [[]|X]. injection X as <-.
  apply (one_type _ _ _ _ _ _ _ _ "string"); [reflexivity|constructor; reflexivity|apply small_by; vm_compute; reflexivity|apply string_only; reflexivity].
Qed.
Example C47_case_words : supported demoPE (drawing 7 3) (fun _ _ => True) (fun _ _ => True) (fun _ _ => True) false 2 wordsNode /\
  exists fuel g s' st', parseDoc demoPE fuel "file:///w/" "file:///w/doc" wordsNode = Ok (Good g, s') /\ pErrs s' = [] /\
    yields (drawing 7 3) g start (JArr [JStr "ab"; JStr "ab"]) st' /\ ~ emitted EvCutoff start st'.
Proof.
  split; [apply words_supported; reflexivity|].
  destruct (runDoc_ok 40 60 (drawing 7 3) wordsNode (JArr [JStr "ab"; JStr "ab"]) []) as (g & s' & st' & A & B & C & D); [vm_compute; reflexivity|].
  exists 40%nat, g, s', st'. split; [exact A|]. split; [exact B|]. split; [exact C|exact (quiet st' D)].
Qed.

(* {"type": "object", "properties": {"name": .., "note": .., "flag": ..}, "patternProperties": {"^r$": {"type": "boolean"}},
    "required": ["name", "note"], "additionalProperties": false} *)
Definition combinedSchema : schemaNode :=
  set_sProperties (Some [("name", nameNode); ("note", noteNode); ("flag", flagNode)])
    (set_sPatternProperties (Some [("^r$", typed "boolean" emptyNode)])
    (set_sRequired (Some ["name"; "note"]) (set_sAdditionalProperties noMore (typed "object" emptyNode)))).
Definition isR (p k : string) : Prop := p = "^r$" /\ k = "r".
Lemma combined_supported : supported demoPE (drawing 7 3) isR (fun _ _ => True) (fun _ _ => True) false 3 combinedSchema.
Proof.
  apply (one_type _ _ _ _ _ _ _ _ "object"); [reflexivity|constructor; reflexivity|apply small_by; vm_compute; reflexivity|].
  split; [cbn; tauto|]. do 4 (split; [intros X; discriminate X|]). intros _.
  assert (ND : NoDup ["name"; "note"]).
  { repeat (constructor; [cbn; intros K; repeat (destruct K as [K|K]; [discriminate K|]); exact K|]). constructor. }
  split; [|split].
  { split; [repeat constructor; cbn; tauto|]. split; [|split].
    - intros p d k [<-|[]] E. injection E as <-. split; [split; reflexivity|]. split; [|intros p' [<-|[]] _; reflexivity].
      cbn. intros K. repeat (destruct K as [K|K]); try discriminate K; destruct K.
    - intros p k _ K [_ ->]. cbn in K. repeat (destruct K as [K|K]); try discriminate K; destruct K.
    - intros _. left. split; [exact ND|]. split; vm_compute; discriminate. }
  { cbn. repeat (constructor; [cbn; intros K; repeat (destruct K as [K|K]; [discriminate K|]); exact K|]). constructor. }
  split; [discriminate|]. split; [intros m X; discriminate X|]. split.
  { intros k K (i & _ & E). cbn in K. repeat (destruct K as [K|K]); subst; try destruct K; repeat (destruct E as [E|E]); cbn in E; discriminate E. }
  split; [intros k [<-|[<-|[]]]; left; cbn; tauto|]. split; [intros _; split; [exact ND|vm_compute; discriminate]|].
  intros c [[k K]|[[k K]|K]]; [| |discriminate K].
  - destruct K as [K|[K|[K|[]]]]; apply pair_equal_spec in K; destruct K as [_ <-]; [apply name_supported|apply note_supported|apply flag_supported].
  - destruct K as [K|[]]; apply pair_equal_spec in K; destruct K as [_ <-].
    apply (one_type _ _ _ _ _ _ _ _ "boolean"); [reflexivity|constructor; reflexivity|apply small_by; vm_compute; reflexivity|apply boolean_only].
Qed.
Example C47_case_combined : supported demoPE (drawing 7 3) isR (fun _ _ => True) (fun _ _ => True) false 3 combinedSchema /\
  exists fuel g s' st', parseDoc demoPE fuel "file:///w/" "file:///w/doc" combinedSchema = Ok (Good g, s') /\ pErrs s' = [] /\
    yields (drawing 7 3) g start (JObj [("name", JStr "ab"); ("note", JNull); ("flag", JBool true); ("r", JBool true)]) st' /\ ~ emitted EvCutoff start st'.
Proof.
  split; [exact combined_supported|].
  destruct (runDoc_ok 30 60 (drawing 7 3) combinedSchema (JObj [("name", JStr "ab"); ("note", JNull); ("flag", JBool true); ("r", JBool true)]) []) as (g & s' & st' & A & B & C & D);
    [vm_compute; reflexivity|].
  exists 30%nat, g, s', st'. split; [exact A|]. split; [exact B|]. split; [exact C|exact (quiet st' D)].
Qed.

(* The full statement is false: {"type": ["string", "integer"], "minLength": 5, "maxLength": 2} is accepted
   without errors, and null, which is valid for neither type, is generated. *)
Theorem C47_valid_refuted : exists n fuel g s' st', plain n /\ smallSizes n /\
  parseDoc demoPE fuel "file:///w/" "file:///w/doc" n = Ok (Good g, s') /\ pErrs s' = [] /\
  yields (drawing 0 0) g start JNull st' /\ gLog st' = [] /\ forall matches formatted refers, ~ valid matches formatted refers n JNull.
Proof.
  exists (set_sType (Some (mkMT "" (Some ["string"; "integer"]))) P_Parse.badString), 20%nat.
  destruct (runDoc_ok 20 20 (drawing 0 0) (set_sType (Some (mkMT "" (Some ["string"; "integer"]))) P_Parse.badString) JNull []) as (g & s' & st' & A & B & C & D);
    [vm_compute; reflexivity|].
  exists g, s', st'. split; [constructor; reflexivity|]. split; [apply small_by; vm_compute; reflexivity|].
  split; [exact A|]. split; [exact B|]. split; [exact C|]. split; [exact D|].
  intros mt fm rf V. destruct V as [V _]. destruct V as [V _]. cbn in V. destruct V as (x & [<-|[<-|[]]] & V); unfold hasType in V;
    repeat (destruct V as [V|V]); destruct V as [X V]; try discriminate X; try discriminate V.
  - destruct V as [? V]; discriminate V.
  - destruct V as (x & V & _). inversion V.
Qed.
Print Assumptions C47_valid_refuted.
