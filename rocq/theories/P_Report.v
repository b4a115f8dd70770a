(* Property C30, continued: what is recorded for the parts of a node that cannot be used. *)
From Coq Require Import ZArith List String Ascii Bool Lia.
From Verif Require Import Base Float64 Json Schema NodeFacts Util Number Options Gen Codec PState PFacts RefPath Merge NotMerge Parse SpecParse SpecRun ParseShape ParseReport MergeProps ParseLoop.
Import ListNotations.
Open Scope string_scope.
Open Scope Z_scope.

(* A node with several oneOf branches: the check that exactly one holds uses every branch that compiles as
   a schema, in order, and for each one left out an error is recorded (under the node's path followed by
   "oneOf/" and its number). *)
Theorem C30_oneOf_reported : forall E fuel n s g s' l, parseNode E fuel n s = Ok (Good g, s') ->
  sRef n = None -> sAllOf n = None -> sConstraints n = None -> sOneOf n = Some l -> (2 <= List.length l)%nat ->
  exists gs (marks : list (option schemaNode)),
    g = GConstrained (GComb gs) [COneOf (flat_map (fun m => match m with Some e => [e] | None => [] end) marks)] /\
    List.length gs = List.length l /\ List.length marks = List.length l /\
    forall j, nth_error marks j = Some None -> errorAt s' (pParsing s) (pPath s ++ "oneOf/" ++ itoa (Z.of_nat j)).
Proof.
  intros E fuel n s g s' l H HR HA HC HO HL.
  assert (HD : pDepth s + 1 <= pxMaxDepth E).
  { apply parseNode_inv in H. destruct H as (f & _ & [(X & _)|(X & _)]); [discriminate|exact X]. }
  apply parseNode_around in H; [|exact HD]. destruct H as (f & s1 & r0 & s2 & A & B & _ & Er & H & Hr). rewrite HC in Hr. subst r0.
  unfold stepF, schemaStep in H. destruct (unsupported n); [apply bad_ok in H; tauto|]. rewrite HR, HA, HO in H. cbn [is_some orb] in H.
  apply (combination_marks E _ _ _ _ _ l) in H; [|exact HO|exact HL]. destruct H as (gs & es & marks & -> & G & M1 & -> & M3).
  exists gs, marks. split; [reflexivity|]. split; [exact G|]. split; [exact M1|]. intros j X. rewrite <- A, <- B. apply Er, M3, X.
Qed.
Print Assumptions C30_oneOf_reported.

(* the second branch does not compile: one error, and one schema left in the check *)
Definition pickyPE : penv := mkPE 100 false (fun _ _ _ => None) (fun _ _ => None) (fun _ _ => "") (fun _ => false)
  (fun _ => true) (fun k => negb (String.eqb k "(")) (fun _ => true) (fun n => match sMinLength n with Some _ => false | None => true end) (fun _ _ => true) (fun _ => true).
Example C30_oneOf_case :
  match parseNode pickyPE 20 (set_sOneOf (Some [set_sType (Some (mkMT "boolean" None)) emptyNode; set_sMinLength (Some 3) emptyNode]) emptyNode) (initP pickyPE loopDoc loopDoc emptyNode) with
  | Ok (Good (GConstrained (GComb [_; _]) [COneOf [_]]), s') => map fst (pErrs s') = [(loopDoc, "#oneOf/1")]
  | _ => False
  end.
Proof. vm_compute. reflexivity. Qed.

(* A node with a condition: the condition is checked and each of then and else is there or an error is
   recorded for it; or the condition as a whole is left out and an error is recorded for that. *)
Theorem C30_if_reported : forall E fuel n s g s', parseNode E fuel n s = Ok (Good g, s') ->
  sRef n = None -> sAllOf n = None -> sOneOf n = None -> sAnyOf n = None -> sNot n = None -> sMergedNot n = [] -> sMergedIf n = [] -> sConstraints n = None ->
  sIf n <> None ->
  (exists g0 c t e, g = GConstrained g0 [CIf [(c, (t, e))]] /\
     (sThen n <> None -> t <> None \/ errorAt s' (pParsing s) (pPath s ++ "//then")) /\
     (sElse n <> None -> e <> None \/ errorAt s' (pParsing s) (pPath s ++ "//else"))) \/
  errorAt s' (pParsing s) (pPath s ++ "/if/config_compile_error").
Proof.
  intros E fuel n s g s' H HR HA HO HY HN HN' HI' HC HI.
  assert (HD : pDepth s + 1 <= pxMaxDepth E).
  { apply parseNode_inv in H. destruct H as (f & _ & [(X & _)|(X & _)]); [discriminate|exact X]. }
  apply parseNode_around in H; [|exact HD]. destruct H as (f & s1 & r0 & s2 & A & B & _ & Er & H & Hr). rewrite HC in Hr. subst r0.
  unfold stepF, schemaStep in H. destruct (unsupported n); [apply bad_ok in H; tauto|]. rewrite HR, HA, HO, HY, HN, HN' in H. cbn [is_some orb] in H.
  destruct (sIf n) as [c|] eqn:Ei; [|congruence]. cbn [is_some orb] in H. rewrite <- Ei in HI.
  apply if_reported in H; [|exact HI|exact HI']. rewrite A, B in H. destruct H as (g0 & [(c0 & t & e & -> & T & L)|(_ & X)]).
  - left. exists g0, c0, t, e. split; [reflexivity|]. split; intros Y; [destruct (T Y) as [Z0|Z0]|destruct (L Y) as [Z0|Z0]]; auto.
  - right. auto.
Qed.
Print Assumptions C30_if_reported.

(* "then" cannot be used ({"minLength": 5, "maxLength": 2}); and an "if" with neither then nor else *)
Example C30_if_case :
  let bad := set_sMinLength (Some 5) (set_sMaxLength (Some 2) emptyNode) in
  match parseNode demoPE 30 (set_sIf (Some emptyNode) (set_sThen (Some bad) (set_sElse (Some emptyNode) (set_sType (Some (mkMT "string" None)) emptyNode)))) (initP demoPE loopDoc loopDoc emptyNode) with
  | Ok (Good (GConstrained (GString _ _ _ _) [CIf [(_, (None, Some _))]]), s') => existsb (fun e => String.eqb (snd (fst e)) "#//then") (pErrs s') = true
  | _ => False
  end /\
  match parseNode demoPE 30 (set_sIf (Some emptyNode) (set_sType (Some (mkMT "string" None)) emptyNode)) (initP demoPE loopDoc loopDoc emptyNode) with
  | Ok (Good (GString _ _ _ _), s') => existsb (fun e => String.eqb (snd (fst e)) "#/if/config_compile_error") (pErrs s') = true
  | _ => False
  end.
Proof. split; vm_compute; reflexivity. Qed.

(* An object: there is an entry for every pattern, and an error is recorded for every one that cannot be
   understood (no property is made for those). *)
Theorem C30_pattern_reported : forall E fuel n s g s', parseNode E fuel n s = Ok (Good g, s') -> plain n -> ofType "object" n ->
  exists ps pats add cf, g = GObject ps pats add cf /\ map fst pats = map fst (get_or (sPatternProperties n) []) /\
    forall k b c, In (k, (b, c)) pats -> b = pxPropRegexOk E k /\ (b = false -> errorAt s' (pParsing s) (pPath s ++ "/regex/" ++ k)).
Proof.
  intros E fuel n s g s' H HP HT.
  assert (HD : pDepth s + 1 <= pxMaxDepth E).
  { apply parseNode_inv in H. destruct H as (f & _ & [(X & _)|(X & _)]); [discriminate|exact X]. }
  apply parseNode_around in H; [|exact HD]. destruct H as (f & s1 & r0 & s2 & A & B & _ & Er & H & Hr). rewrite (plConstraints n HP) in Hr. subst r0.
  pose proof (step_supported _ _ _ _ _ _ H) as HU. rewrite step_plain in H by assumption. unfold byType in H. rewrite HT in H. cbn [mtMultiple mtSingle String.eqb negb Ascii.eqb Bool.eqb] in H.
  unfold parseType in H. cbn [String.eqb Ascii.eqb Bool.eqb] in H.
  apply object_reported in H. destruct H as (ps & pats & add & cf & -> & M & R). exists ps, pats, add, cf. split; [reflexivity|]. split; [exact M|].
  intros k b c I. destruct (R k b c I) as [X Y]. split; [exact X|]. intros F. rewrite <- A, <- B. apply Er, Y, F.
Qed.
Print Assumptions C30_pattern_reported.
Example C30_pattern_case :
  match parseNode pickyPE 20 (set_sType (Some (mkMT "object" None)) (set_sPatternProperties (Some [("a+", set_sType (Some (mkMT "boolean" None)) emptyNode); ("(", emptyNode)]) emptyNode)) (initP pickyPE loopDoc loopDoc emptyNode) with
  | Ok (Good (GObject [] [("a+", (true, GBool)); ("(", (false, _))] None _), s') => map fst (pErrs s') = [(loopDoc, "#/regex/(")]
  | _ => False
  end.
Proof. vm_compute. reflexivity. Qed.
