(* Properties C32-C35: what merging schema nodes does to bounds, enum/const and multipleOf. *)
From Coq Require Import ZArith Reals List String Bool Permutation Lia Lra.
From Flocq Require Import Core BinarySingleNaN.
From Verif Require Import Base Float64 FloatFacts Json Schema Util PState Merge SpecNumber SpecSchema MergeProps SpecMerge MergeSound MergeLoss MergeMany.
Import ListNotations.
Open Scope string_scope.
Open Scope Z_scope.

(* ---- C33 bounds: exactly the conjunction, in any order ---- *)
Theorem C33_merge_bounds_exact : forall E fuel nodes s m s' len items contains props x,
  merge E fuel nodes s = Ok (m, s') ->
  (forall n, In n nodes -> forall c, conjunct c n -> sRef c = None /\ finiteBounds c) ->
  ((forall c, conjunct c m -> boundsHold c len items contains props x) <->
   (forall n, In n nodes -> forall c, conjunct c n -> boundsHold c len items contains props x)).
Proof. exact merge_bounds. Qed.
Print Assumptions C33_merge_bounds_exact.

Theorem C33_merge_bounds_any_order : forall E fuel fuel' nodes nodes' s t m s' m' t' len items contains props x,
  Permutation nodes nodes' ->
  merge E fuel nodes s = Ok (m, s') -> merge E fuel' nodes' t = Ok (m', t') ->
  (forall n, In n nodes -> forall c, conjunct c n -> sRef c = None /\ finiteBounds c) ->
  ((forall c, conjunct c m -> boundsHold c len items contains props x) <->
   (forall c, conjunct c m' -> boundsHold c len items contains props x)).
Proof. exact merge_bounds_order. Qed.
Print Assumptions C33_merge_bounds_any_order.

Example C33_case : (forall n, In n [b1; b2] -> forall c, conjunct c n -> sRef c = None /\ finiteBounds c) /\
  exists m s', merge demoPE 20 [b1; b2] demoP = Ok (m, s') /\ sMinLength m = Some 5 /\ sMaxLength m = Some 7 /\ sAllOf m = None.
Proof. exact bounds_case. Qed.

(* ---- C34 enum and const: the intersection ---- *)
(* Values are compared by their JSON text.  Missing from the full statement: nodes with both enum and const. *)
Theorem C34_merge_enum_intersection_partial : forall E fuel nodes s m s' v,
  merge E fuel nodes s = Ok (m, s') ->
  (forall n, In n nodes -> forall c, conjunct c n -> sRef c = None /\ (sEnum c = None \/ sConst c = None)) ->
  ((forall c, conjunct c m -> listed c v) <-> (forall n, In n nodes -> forall c, conjunct c n -> listed c v)) \/
  exists doc path, In ((doc, path ++ "/config_merge_error"), "enum/const") (pErrs s').
Proof. exact merge_enum. Qed.
Print Assumptions C34_merge_enum_intersection_partial.

Theorem C34_empty_intersection_reported_partial : forall E fuel nodes s m s',
  merge E fuel nodes s = Ok (m, s') ->
  (forall n, In n nodes -> sRef n = None /\ sAllOf n = None /\ (sEnum n = None \/ sConst n = None) /\ sEnum n <> Some []) ->
  (exists v, forall n, In n nodes -> listed n v) \/
  exists doc path, In ((doc, path ++ "/config_merge_error"), "enum/const") (pErrs s').
Proof. exact merge_enum_reports. Qed.
Print Assumptions C34_empty_intersection_reported_partial.

(* a node with both keywords loses its const *)
Theorem C34_enum_with_const_refuted : exists m s', merge demoPE 5 [ec] demoP = Ok (m, s') /\
  (forall c, conjunct c m -> listed c (JInt 2)) /\ ~ listed ec (JInt 2) /\ pErrs s' = [].
Proof. exact enum_const_lost. Qed.
Print Assumptions C34_enum_with_const_refuted.

Example C34_case : (forall n, In n [e1; e2] -> sRef n = None /\ sAllOf n = None /\ (sEnum n = None \/ sConst n = None) /\ sEnum n <> Some []) /\
  exists m s', merge demoPE 5 [e1; e2] demoP = Ok (m, s') /\ sEnum m = Some [JStr "a"; JInt 1] /\ pErrs s' = [].
Proof. exact enum_case. Qed.
Example C34_case_reported : exists m s', merge demoPE 5 [e1; e3] demoP = Ok (m, s') /\ sEnum m = None /\ sConst m = None /\
  pErrs s' = [(("file:///w/", "#/config_merge_error"), "enum/const")].
Proof. exact enum_case_empty. Qed.

(* ---- C35 multipleOf: a common multiple ---- *)
(* a and b are decimals with at most six places whose scaled product is exact in a float64.
   Missing from the full statement: more places, larger products. *)
Theorem C35_common_multiple_partial : forall E fuel n1 n2 s m s' a b k,
  merge E fuel [n1; n2] s = Ok (m, s') ->
  sRef n1 = None -> sAllOf n1 = None -> sRef n2 = None -> sAllOf n2 = None ->
  sMultipleOf n1 = Some a -> sMultipleOf n2 = Some b ->
  is_finite a = true -> is_finite b = true -> (0 < B2R a)%R -> (0 < B2R b)%R ->
  (k <= 6)%nat ->
  (exists u, B2R a * IZR (10 ^ Z.of_nat k) = IZR u)%R -> (exists u, B2R b * IZR (10 ^ Z.of_nat k) = IZR u)%R ->
  (B2R a * IZR (10 ^ Z.of_nat k) * (B2R b * IZR (10 ^ Z.of_nat k)) <= IZR (2 ^ 53))%R ->
  (exists r, sMultipleOf m = Some r /\ (0 < B2R r)%R) /\ forall x, okMultipleOf m x -> okMultipleOf n1 x /\ okMultipleOf n2 x.
Proof. exact merge_multipleOf. Qed.
Print Assumptions C35_common_multiple_partial.

Theorem C35_small_decimals_refuted : exists m s', merge demoPE 5 [m1; m2] demoP = Ok (m, s') /\ pErrs s' = [] /\
  exists x, okMultipleOf m x /\ ~ okMultipleOf m1 x.
Proof. exact multipleOf_wrong. Qed.
Print Assumptions C35_small_decimals_refuted.

Example C35_case :
  let n1 := set_sMultipleOf (Some (fof 3 (-2))) emptyNode in let n2 := set_sMultipleOf (Some (fofZ 2)) emptyNode in
  is_finite (fof 3 (-2)) = true /\ B2R (fof 3 (-2)) = (3 / 4)%R /\ is_finite (fofZ 2) = true /\ B2R (fofZ 2) = 2%R /\
  exists m s', merge demoPE 5 [n1; n2] demoP = Ok (m, s').
Proof. exact multipleOf_case. Qed.

(* the same for any number of nodes, with or without the keyword *)
Theorem C35_any_number_partial : forall E fuel nodes s m s' k, merge E fuel nodes s = Ok (m, s') -> (k <= 6)%nat ->
  (forall n, In n nodes -> sRef n = None /\ sAllOf n = None) ->
  (forall n a, In n nodes -> sMultipleOf n = Some a -> shortDecimal k a) ->
  (scaledProduct k nodes <= IZR (2 ^ 53))%R ->
  (forall x, okMultipleOf m x -> forall n, In n nodes -> okMultipleOf n x) /\
  ((exists n, In n nodes /\ sMultipleOf n <> None) -> exists r, sMultipleOf m = Some r /\ (0 < B2R r)%R).
Proof. exact merge_multiples. Qed.
Print Assumptions C35_any_number_partial.

(* 0.75, nothing, 2 and 5 *)
Example C35_any_number_case :
  let step a := set_sMultipleOf (Some a) emptyNode in
  let nodes := [step (fof 3 (-2)); emptyNode; step (fofZ 2); step (fofZ 5)] in
  (forall n a, In n nodes -> sMultipleOf n = Some a -> shortDecimal 2 a) /\ scaledProduct 2 nodes = 7500000%R /\
  exists m s', merge demoPE 5 nodes demoP = Ok (m, s') /\ pErrs s' = [].
Proof.
  assert (A : B2R (fof 3 (-2)) = (3 / 4)%R) by exact (proj1 (proj2 multipleOf_case)).
  assert (F : is_finite (fof 3 (-2)) = true) by exact (proj1 multipleOf_case).
  destruct (fofZ_exact 2) as [B FB]; [lia|]. destruct (fofZ_exact 5) as [C FC]; [lia|]. unfold val in B, C.
  change (10 ^ Z.of_nat 2) with 100%Z. cbv zeta. split; [|split].
  - assert (SA : shortDecimal 2 (fof 3 (-2))) by (split; [exact F|]; rewrite A; change (10 ^ Z.of_nat 2) with 100; split; [lra|exists 75; lra]).
    assert (SB : shortDecimal 2 (fofZ 2)) by (split; [exact FB|]; rewrite B; change (10 ^ Z.of_nat 2) with 100; split; [lra|exists 200; lra]).
    assert (SC : shortDecimal 2 (fofZ 5)) by (split; [exact FC|]; rewrite C; change (10 ^ Z.of_nat 2) with 100; split; [lra|exists 500; lra]).
    revert A F B FB C FC SA SB SC. generalize (fof 3 (-2)) (fofZ 2) (fofZ 5). intros a b c _ _ _ _ _ _ SA SB SC n x I E.
    destruct I as [<-|[<-|[<-|[<-|[]]]]]; cbn [sMultipleOf set_sMultipleOf emptyNode] in E; try discriminate E; injection E as <-; assumption.
  - cbn [scaledProduct sMultipleOf set_sMultipleOf emptyNode]. rewrite A, B, C. change (10 ^ Z.of_nat 2) with 100. lra.
  - assert (H : okM (merge demoPE 5 [set_sMultipleOf (Some (fof 3 (-2))) emptyNode; emptyNode; set_sMultipleOf (Some (fofZ 2)) emptyNode; set_sMultipleOf (Some (fofZ 5)) emptyNode] demoP) (fun _ s => match pErrs s with [] => true | _ => false end) = true) by (vm_compute; exact (eq_refl _)).
    apply okM_ex in H. destruct H as (m & s & H1 & H2). exists m, s. split; [exact H1|]. destruct (pErrs s); [exact (eq_refl _)|discriminate H2].
Qed.

(* ---- C32 the merged node implies every branch ---- *)
(* Schemas that can be merged (SpecMerge.canMerge): a value valid against the merged node is valid against
   each of them, unless an empty intersection of enum values was reported.  Missing from the full
   statement: the combinations canMerge excludes, most of which are refuted below; conditionals (kept in
   an internal list), additionalItems, maxContains, and multipleOf on several branches (C35). *)
Theorem C32_merged_implies_branches_partial : forall matches formatted refers E fuel nodes s m s' v,
  merge E fuel nodes s = Ok (m, s') -> canMerge nodes ->
  (forall doc path, ~ In ((doc, path ++ "/config_merge_error"), "enum/const") (pErrs s')) ->
  valid matches formatted refers m v -> forall n, In n nodes -> valid matches formatted refers n v.
Proof.
  intros matches formatted refers E fuel nodes s m s' v H C Q V. eapply merge_keeps; eauto. intros (d & p & I). exact (Q d p I).
Qed.
Print Assumptions C32_merged_implies_branches_partial.

Example C32_case : canMerge [cm1; cm2] /\ exists m s', merge demoPE 9 [cm1; cm2] demoP = Ok (m, s') /\ pErrs s' = [] /\ sAllOf m = None /\
  sProperties m = Some [("a", set_sMinLength (Some 1) (set_sMaxLength (Some 3) (one "string"))); ("b", set_sConst (Some (JInt 2)) emptyNode)].
Proof. exact (conj canMerge_case canMerge_merges). Qed.

(* branches without references or allOf whose merged node, built without any report, allows a value that
   one of them forbids: two types, two anyOf, items:false, additionalProperties:false beside a branch
   with other properties, items beside a branch with more positions, contains beside minContains:0 *)
Theorem C32_lost_refuted : forall (matches formatted : string -> string -> Prop) (refers : string -> json -> Prop),
  let lost nodes v := exists m s', merge demoPE 6 nodes demoP = Ok (m, s') /\ pErrs s' = [] /\ valid matches formatted refers m v /\
                        exists n, In n nodes /\ ~ valid matches formatted refers n v in
  let string := set_sType (Some (mkMT "string" None)) emptyNode in
  let integer := set_sType (Some (mkMT "integer" None)) emptyNode in
  lost [string; integer] (JInt 1) /\
  lost [set_sAnyOf (Some [string]) emptyNode; set_sAnyOf (Some [integer]) emptyNode] (JInt 1) /\
  lost [set_sItems (Some (mkItems None None true)) emptyNode; emptyNode] (JArr [JNull]) /\
  lost [set_sAdditionalProperties (Some (mkNOF None true)) (set_sProperties (Some [("a", emptyNode)]) emptyNode);
        set_sProperties (Some [("b", emptyNode)]) emptyNode] (JObj [("b", JNull)]) /\
  lost [set_sPrefixItems (Some [emptyNode]) (set_sItems (Some (mkItems (Some string) None false)) emptyNode);
        set_sPrefixItems (Some [emptyNode; emptyNode]) emptyNode] (JArr [JNull; JInt 1]) /\
  lost [set_sContains (Some emptyNode) emptyNode; set_sMinContains (Some 0) emptyNode] (JArr []).
Proof.
  intros matches formatted refers. cbv zeta. split; [apply loses_type|]. split; [apply loses_anyOf|]. split; [apply loses_items|].
  split; [apply loses_additional|]. split; [apply loses_prefix|apply loses_contains].
Qed.
Print Assumptions C32_lost_refuted.

(* reported, but lost: the first of two patterns, and uniqueItems:true before uniqueItems:false *)
Theorem C32_overwritten_refuted : forall (matches formatted : string -> string -> Prop) (refers : string -> json -> Prop),
  (forall t, matches "b" t -> ~ matches "a" t -> exists m s',
     merge demoPE 6 [set_sPattern (Some "a") emptyNode; set_sPattern (Some "b") emptyNode] demoP = Ok (m, s') /\
     valid matches formatted refers m (JStr t) /\ ~ valid matches formatted refers (set_sPattern (Some "a") emptyNode) (JStr t)) /\
  exists m s', merge demoPE 6 [set_sUniqueItems (Some true) emptyNode; set_sUniqueItems (Some false) emptyNode] demoP = Ok (m, s') /\
     valid matches formatted refers m (JArr [JNull; JNull]) /\ ~ valid matches formatted refers (set_sUniqueItems (Some true) emptyNode) (JArr [JNull; JNull]).
Proof. intros matches formatted refers. exact (conj (loses_pattern matches formatted refers) (loses_unique matches formatted refers)). Qed.
Print Assumptions C32_overwritten_refuted.
