(* Keywords lost by merging: concrete schemas for which the merged node allows a value one of them
   forbids, although nothing is reported. *)
From Coq Require Import ZArith Reals List String Bool Lia Lra.
From Flocq Require Import Core BinarySingleNaN.
From Verif Require Import Base Float64 Json Schema Util Number Gen Codec PState PFacts RefPath Merge NotMerge Parse ParseKeep FloatFacts SpecNumber SpecSchema MergeFacts MergeProps JEq SpecMerge MergeValid MergeStep MergeSound.
Import ListNotations.
Open Scope string_scope.
Open Scope Z_scope.

Definition one (t : string) : schemaNode := set_sType (Some (mkMT t None)) emptyNode.

Section Loss.
Variable matches : string -> string -> Prop.
Variable formatted : string -> string -> Prop.
Variable refers : string -> json -> Prop.
Notation valid := (valid matches formatted refers).

(* the schemas merge without a report into one that allows v, which the first or second forbids *)
Definition loses (nodes : list schemaNode) (v : json) : Prop :=
  exists m s', merge demoPE 6 nodes demoP = Ok (m, s') /\ pErrs s' = [] /\ valid m v /\ exists n, In n nodes /\ ~ valid n v.

Ltac flat := repeat split; try (intros; discriminate); try (intros; congruence); auto.
Lemma empty_valid : forall v, valid emptyNode v.
Proof.
  intros v. apply valid_eq. unfold okFlat, okString, okNumber, okArray, okObject, okEnum, okConst, okRange, okBounds, okMinimum, okMaximum, okExclusiveMinimum, okExclusiveMaximum, okMultipleOf. cbn. flat.
Qed.
Lemma one_valid : forall t v, t <> "" -> hasType t v -> valid (one t) v.
Proof.
  intros t v Ht H. apply valid_eq. unfold okFlat, okString, okNumber, okArray, okObject, okEnum, okConst, okRange, okBounds, okMinimum, okMaximum, okExclusiveMinimum, okExclusiveMaximum, okMultipleOf. cbn. flat.
Qed.
Lemma valid_type : forall n v t, valid n v -> sType n = Some (mkMT t None) -> t <> "" -> hasType t v.
Proof. intros n v t V T H. apply valid_eq in V. destruct V as ((V & _) & _). rewrite T in V. cbn in V. auto. Qed.
Lemma int_not : forall t, t <> "integer" -> t <> "number" -> ~ hasType t (JInt 1).
Proof. intros t H1 H2 [[_ X]|[[_ [b X]]|[[X _]|[[X _]|[[_ [s X]]|[[_ [l X]]|[_ [m X]]]]]]]]; try discriminate X; auto. Qed.
Lemma int_is : hasType "integer" (JInt 1).
Proof. right. right. right. left. split; auto. exists 1%R. split; [reflexivity|]. exists 1. reflexivity. Qed.

(* {"type":"string"} and {"type":"integer"}: the last type wins *)
Lemma loses_type : loses [one "string"; one "integer"] (JInt 1).
Proof.
  eexists. eexists. split; [vm_compute; reflexivity|]. split; [reflexivity|]. split.
  - apply (one_valid "integer"); [discriminate|apply int_is].
  - exists (one "string"). split; [simpl; auto|]. intros V. eapply valid_type in V; [|reflexivity|discriminate]. revert V. apply int_not; discriminate.
Qed.

(* {"anyOf":[{"type":"string"}]} and {"anyOf":[{"type":"integer"}]}: the branches are put together *)
Lemma loses_anyOf : loses [set_sAnyOf (Some [one "string"]) emptyNode; set_sAnyOf (Some [one "integer"]) emptyNode] (JInt 1).
Proof.
  eexists. eexists. split; [vm_compute; reflexivity|]. split; [reflexivity|]. split.
  - apply valid_eq. unfold okFlat, okString, okNumber, okArray, okObject, okEnum, okConst, okRange, okBounds, okMinimum, okMaximum, okExclusiveMinimum, okExclusiveMaximum, okMultipleOf.
    cbn [sType sProperties sAdditionalProperties sPatternProperties sItems sContains sMinContains sMaxContains sPrefixItems sAdditionalItems sNot sAllOf sAnyOf sOneOf sIf sThen sElse present
         sMinimum sMaximum sExclusiveMinimum sExclusiveMaximum sMultipleOf sMinLength sMaxLength sPattern sFormat sMinItems sMaxItems sUniqueItems sMinProperties sMaxProperties sRequired sEnum sConst okType].
    split; [flat|]. split; [intros; discriminate|]. split; [intros; discriminate|]. split; [exact I|]. split; [|flat].
    right. left. apply (one_valid "integer"); [discriminate|apply int_is].
  - eexists. split; [left; reflexivity|]. intros V. apply valid_eq in V. destruct V as (_ & _ & _ & _ & V & _). cbn [sAnyOf set_sAnyOf present some] in V.
    destruct V as [V|[]]. eapply valid_type in V; [|reflexivity|discriminate]. revert V. apply int_not; discriminate.
Qed.

(* {"items":false} and {} : the ban is dropped *)
Lemma loses_items : loses [set_sItems (Some (mkItems None None true)) emptyNode; emptyNode] (JArr [JNull]).
Proof.
  eexists. eexists. split; [vm_compute; reflexivity|]. split; [reflexivity|]. split; [apply empty_valid|].
  eexists. split; [left; reflexivity|]. intros V. apply valid_eq in V. destruct V as (_ & _ & V & _). specialize (V _ eq_refl).
  cbn in V. destruct V as (_ & (_ & V & _) & _). specialize (V eq_refl). discriminate.
Qed.

(* {"properties":{"a":{}},"additionalProperties":false} and {"properties":{"b":{}}}: b becomes allowed *)
Lemma loses_additional : loses [set_sAdditionalProperties (Some (mkNOF None true)) (set_sProperties (Some [("a", emptyNode)]) emptyNode);
                                set_sProperties (Some [("b", emptyNode)]) emptyNode] (JObj [("b", JNull)]).
Proof.
  eexists. eexists. split; [vm_compute; reflexivity|]. split; [reflexivity|]. split.
  - apply valid_eq. unfold okFlat, okString, okNumber, okArray, okObject, okEnum, okConst, okRange, okBounds, okMinimum, okMaximum, okExclusiveMinimum, okExclusiveMaximum, okMultipleOf.
    cbn [sType sProperties sAdditionalProperties sPatternProperties sItems sContains sMinContains sMaxContains sPrefixItems sAdditionalItems sNot sAllOf sAnyOf sOneOf sIf sThen sElse present
         sMinimum sMaximum sExclusiveMinimum sExclusiveMaximum sMultipleOf sMinLength sMaxLength sPattern sFormat sMinItems sMaxItems sUniqueItems sMinProperties sMaxProperties sRequired sEnum sConst okType].
    split; [flat|]. split; [|split; [intros; discriminate|flat]].
    intros m Em. injection Em as <-. split; [|split; [exact I|]].
    + cbn [everyMember]. split; [|split; [|exact I]]; intros; apply (empty_valid).
    + intros k x A N1. exfalso. apply N1. cbn [assoc] in A. destruct (String.eqb_spec k "b"); [subst; simpl; auto|discriminate].
  - eexists. split; [left; reflexivity|]. intros V. apply valid_eq in V. destruct V as (_ & V & _). specialize (V _ eq_refl).
    cbn [sAdditionalProperties set_sAdditionalProperties set_sProperties sProperties sPatternProperties present emptyNode get_or keys map fst] in V.
    destruct V as (_ & _ & V). destruct (V "b" JNull) as [W _]; [reflexivity| | |discriminate W].
    + intros [X|[]]; discriminate X.
    + intros p [].
Qed.

(* {"prefixItems":[{}],"items":{"type":"string"}} and {"prefixItems":[{},{}]}: the second position escapes items *)
Lemma loses_prefix : loses [set_sPrefixItems (Some [emptyNode]) (set_sItems (Some (mkItems (Some (one "string")) None false)) emptyNode);
                            set_sPrefixItems (Some [emptyNode; emptyNode]) emptyNode] (JArr [JNull; JInt 1]).
Proof.
  eexists. eexists. split; [vm_compute; reflexivity|]. split; [reflexivity|]. split.
  - apply valid_eq. unfold okFlat, okString, okNumber, okArray, okObject, okEnum, okConst, okRange, okBounds, okMinimum, okMaximum, okExclusiveMinimum, okExclusiveMaximum, okMultipleOf.
    cbn [sType sProperties sAdditionalProperties sPatternProperties sItems sContains sMinContains sMaxContains sPrefixItems sAdditionalItems sNot sAllOf sAnyOf sOneOf sIf sThen sElse present
         sMinimum sMaximum sExclusiveMinimum sExclusiveMaximum sMultipleOf sMinLength sMaxLength sPattern sFormat sMinItems sMaxItems sUniqueItems sMinProperties sMaxProperties sRequired sEnum sConst okType].
    split; [flat|]. split; [intros; discriminate|]. split; [|flat].
    intros l El. injection El as <-. split; [|split; [|split; exact I]].
    + cbn [positions]. split; [|split; [|exact I]]; apply empty_valid.
    + cbn [itNodes itDisallow itNode tupleLength List.length skipn present]. split; [intros; exact I|]. split; [discriminate|]. intros x [].
  - eexists. split; [left; reflexivity|]. intros V. apply valid_eq in V. destruct V as (_ & _ & V & _). specialize (V _ eq_refl).
    cbn [sPrefixItems sItems set_sPrefixItems set_sItems present itNode tupleLength List.length skipn] in V. destruct V as (_ & (_ & _ & V) & _).
    specialize (V (JInt 1) (or_introl eq_refl)). eapply valid_type in V; [|reflexivity|discriminate]. revert V. apply int_not; discriminate.
Qed.

(* {"uniqueItems":true} after {"uniqueItems":false} would be kept; the other order drops it *)
Lemma loses_unique : exists m s', merge demoPE 6 [set_sUniqueItems (Some true) emptyNode; set_sUniqueItems (Some false) emptyNode] demoP = Ok (m, s') /\
  valid m (JArr [JNull; JNull]) /\ ~ valid (set_sUniqueItems (Some true) emptyNode) (JArr [JNull; JNull]).
Proof.
  eexists. eexists. split; [vm_compute; reflexivity|]. split.
  - apply valid_eq. unfold okFlat, okString, okNumber, okArray, okObject, okEnum, okConst, okRange, okBounds, okMinimum, okMaximum, okExclusiveMinimum, okExclusiveMaximum, okMultipleOf. cbn. flat.
  - intros V. apply valid_eq in V. destruct V as ((_ & _ & _ & _ & _ & V & _) & _). destruct (V _ eq_refl) as [_ W]. specialize (W eq_refl).
    apply (W 0%nat 1%nat JNull JNull); auto. constructor.
Qed.
(* two patterns: the last one wins *)
Lemma loses_pattern : forall t, matches "b" t -> ~ matches "a" t -> exists m s',
  merge demoPE 6 [set_sPattern (Some "a") emptyNode; set_sPattern (Some "b") emptyNode] demoP = Ok (m, s') /\
  valid m (JStr t) /\ ~ valid (set_sPattern (Some "a") emptyNode) (JStr t).
Proof.
  intros t Mq Mp. eexists. eexists. split; [vm_compute; reflexivity|]. split.
  - apply valid_eq. unfold okFlat, okString, okNumber, okArray, okObject, okEnum, okConst, okRange, okBounds, okMinimum, okMaximum, okExclusiveMinimum, okExclusiveMaximum, okMultipleOf. cbn. flat.
  - intros V. apply valid_eq in V. destruct V as ((_ & _ & _ & V & _) & _). destruct (V t eq_refl) as (_ & W & _). apply Mp. apply W. reflexivity.
Qed.
(* {"contains":{}} and {"minContains":0}: the second removes the contains of the first *)
Lemma loses_contains : loses [set_sContains (Some emptyNode) emptyNode; set_sMinContains (Some 0) emptyNode] (JArr []).
Proof.
  eexists. eexists. split; [vm_compute; reflexivity|]. split; [reflexivity|]. split.
  - apply valid_eq. unfold okFlat, okString, okNumber, okArray, okObject, okEnum, okConst, okRange, okBounds, okMinimum, okMaximum, okExclusiveMinimum, okExclusiveMaximum, okMultipleOf. cbn. flat.
    apply al_done. lia.
  - eexists. split; [left; reflexivity|]. intros V. apply valid_eq in V. destruct V as (_ & _ & V & _). specialize (V _ eq_refl).
    cbn in V. destruct V as (_ & _ & _ & V & _). inversion V. lia.
Qed.
End Loss.

(* ------------------------------------------------------------------ schemas that can be merged *)
(* {"type":"object","required":["a"],"properties":{"a":{"type":"string","minLength":1}},
    "allOf":[{"properties":{"a":{"maxLength":3},"b":{"enum":[1,2]}}}]} and
   {"properties":{"b":{"enum":[2,3]}},"maxProperties":4} *)
Definition cm1 : schemaNode :=
  set_sType (Some (mkMT "object" None)) (set_sRequired (Some ["a"])
  (set_sProperties (Some [("a", set_sMinLength (Some 1) (one "string"))])
  (set_sAllOf (Some [set_sProperties (Some [("a", set_sMaxLength (Some 3) emptyNode); ("b", set_sEnum (Some [JInt 1; JInt 2]) emptyNode)]) emptyNode]) emptyNode))).
Definition cm2 : schemaNode := set_sMaxProperties (Some 4) (set_sProperties (Some [("b", set_sEnum (Some [JInt 2; JInt 3]) emptyNode)]) emptyNode).

Ltac singles := constructor; cbn; auto; try (intros; discriminate); try (repeat constructor; simpl; intuition congruence); try (unfold finiteBounds; cbn; auto; fail).
Ltac agrees := constructor; unfold sameIfBoth, notBoth, covers; cbn; auto; try (intros; discriminate); try (split; intros; congruence).
Lemma canMerge_case : canMerge [cm1; cm2].
Proof.
  exists 2%nat. change (concatMap conjuncts [cm1; cm2]) with
    [set_sAllOf None cm1; set_sProperties (Some [("a", set_sMaxLength (Some 3) emptyNode); ("b", set_sEnum (Some [JInt 1; JInt 2]) emptyNode)]) emptyNode; set_sAllOf None cm2].
  apply fit_S. split; [|split].
  - intros n [<-|[<-|[<-|[]]]]; singles.
  - repeat first [apply FOP_nil | apply FOP_cons | apply Forall_nil | apply Forall_cons]; agrees.
  - intros [k|k|i| | |]; try exact I.
    + cbn [concatMap subAt cm1 cm2 set_sAllOf set_sType set_sRequired set_sProperties set_sMaxProperties sProperties emptyNode get_or assoc].
      destruct (String.eqb_spec k "a") as [->|Na].
      * change (fit 1 (concatMap conjuncts [set_sMinLength (Some 1) (one "string"); set_sMaxLength (Some 3) emptyNode])).
        apply fit_S. split; [|split].
        -- intros n [<-|[<-|[]]]; singles.
        -- repeat first [apply FOP_nil | apply FOP_cons | apply Forall_nil | apply Forall_cons]; agrees.
        -- intros [k|k|[|i]| | |]; exact I.
      * destruct (String.eqb_spec k "b") as [->|Nb]; [|exact I].
        change (fit 1 (concatMap conjuncts [set_sEnum (Some [JInt 1; JInt 2]) emptyNode; set_sEnum (Some [JInt 2; JInt 3]) emptyNode])).
        apply fit_S. split; [|split].
        -- intros n [<-|[<-|[]]]; singles; intros l x El Il; injection El as <-; destruct Il as [<-|[<-|[]]]; discriminate.
        -- repeat first [apply FOP_nil | apply FOP_cons | apply Forall_nil | apply Forall_cons]; agrees.
        -- intros [k|k|[|i]| | |]; exact I.
    + destruct i as [|i]; exact I.
Qed.
Lemma canMerge_merges : exists m s', merge demoPE 9 [cm1; cm2] demoP = Ok (m, s') /\ pErrs s' = [] /\ sAllOf m = None /\
  sProperties m = Some [("a", set_sMinLength (Some 1) (set_sMaxLength (Some 3) (one "string"))); ("b", set_sConst (Some (JInt 2)) emptyNode)].
Proof. eexists. eexists. split; [vm_compute; reflexivity|]. split; [reflexivity|]. split; reflexivity. Qed.
