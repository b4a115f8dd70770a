(* Properties C20-C22 and C50: combinations, conditions, negations and excluded values. *)
From Coq Require Import ZArith List String Bool.
From Verif Require Import Base Float64 Json Schema Util Options Number Gen GenInv GenValues PState RefPath Merge NotMerge Parse.
From Verif Require Import SpecSchema SpecParse SpecRun MergeProps ValueProps ConstrProps NotValues ValueDemo.
Import ListNotations.
Open Scope string_scope.
Open Scope Z_scope.

(* ---- C20 anyOf and oneOf ---- *)
(* Missing from the full statement: nodes with $ref or allOf next to the keyword (they are merged or
   replaced first); anyOf next to oneOf is in P_Combos.v. *)
Theorem C20_anyOf_partial : forall PE GE n l g st v st', sRef n = None -> sAllOf n = None -> sConstraints n = None ->
  get_or (sOneOf n) [] = [] -> sAnyOf n = Some l -> accepted PE n g -> yields GE g st v st' ->
  (v = JNull /\ emitted EvCutoff st st') \/
  exists sub g', In sub l /\ branchOf PE false n sub g' /\ madeBy GE g' v st st'.
Proof. exact anyOf_values. Qed.
Print Assumptions C20_anyOf_partial.

Theorem C20_oneOf_partial : forall PE GE n a b r g st v st', sRef n = None -> sAllOf n = None -> sConstraints n = None ->
  sOneOf n = Some (a :: b :: r) -> accepted PE n g -> yields GE g st v st' ->
  (v = JStr oneOfFailure /\ emitted EvOneOfFail st st') \/
  (((v = JNull /\ emitted EvCutoff st st') \/
    exists sub g', In sub (a :: b :: r) /\ branchOf PE true n sub g' /\ madeBy GE g' v st st') /\
   (emitted EvUnchecked st st' \/
    exists es, checkedBranches PE (a :: b :: r) es /\ exactlyOne (fun e => eValid GE e v = true) es)).
Proof. exact oneOf_values. Qed.
Print Assumptions C20_oneOf_partial.

Theorem C20_oneOf_single_partial : forall PE GE n sub g st v st', sRef n = None -> sAllOf n = None -> sConstraints n = None ->
  sOneOf n = Some [sub] -> accepted PE n g -> yields GE g st v st' -> branchOf PE true n sub g.
Proof. exact oneOf_single. Qed.
Print Assumptions C20_oneOf_single_partial.

Example C20_case : let a := set_sAnyOf (Some [isConst "x"; isConst "y"]) emptyNode in
                   let o := set_sOneOf (Some [isConst "x"; isConst "y"]) emptyNode in
  sRef a = None /\ sAllOf a = None /\ sConstraints a = None /\ get_or (sOneOf a) [] = [] /\ gives (drawing 1 0) a (JStr "y") [] /\
  sRef o = None /\ sAllOf o = None /\ sConstraints o = None /\ gives (drawing 1 0) o (JStr "y") [].
Proof.
  cbv zeta. split; [reflexivity|]. split; [reflexivity|]. split; [reflexivity|]. split; [reflexivity|]. split; [demo|].
  split; [reflexivity|]. split; [reflexivity|]. split; [reflexivity|]. demo.
Qed.

(* ---- C21 conditions ---- *)
(* One condition.  Missing from the full statement: several conditions, see below. *)
Theorem C21_if_partial : forall PE GE n c fuel g s s' st v st', sRef n = None -> sAllOf n = None -> sAnyOf n = None -> sOneOf n = None ->
  sNot n = None -> sMergedNot n = [] -> sMergedIf n = [] -> sConstraints n = None -> sIf n = Some c ->
  parseNode PE fuel n s = Ok (Good g, s') -> yields GE g st v st' ->
  (v = JStr ifFailure /\ emitted EvIfFail st st') \/
  (fromSchema PE GE (withoutIf n) v st st' /\ (emitted EvUnchecked st st' \/ reports s s' "if")) \/
  exists t c' th el, compiledAs PE t c (pPath t ++ "/" ++ "/if/0") c' /\
    ifBranch PE (withoutIf n) (sThen n) th /\ ifBranch PE (withoutIf n) (sElse n) el /\
    ((eValid GE c' v = true /\ match th with Some gt => madeBy GE gt v st st' | None => fromSchema PE GE (withoutIf n) v st st' end) \/
     (eValid GE c' v = false /\ match el with Some ge => madeBy GE ge v st st' | None => fromSchema PE GE (withoutIf n) v st st' end)).
Proof. exact if_values. Qed.
Print Assumptions C21_if_partial.

(* {"type":"string","allOf":[{"if":{"type":"string"},"then":{"const":"y"}},{"if":{"type":"string"},"then":{"type":"string"}}]}
   yields "ab": both conditions hold of it, the then-branch of the first only allows "y" *)
Theorem C21_two_conditions_refuted :
  let c := typed "string" emptyNode in
  let n := set_sAllOf (Some [set_sThen (Some (isConst "y")) (set_sIf (Some c) emptyNode); set_sThen (Some c) (set_sIf (Some c) emptyNode)])
             (typed "string" emptyNode) in
  gives (drawing 1 0) n (JStr "ab") [] /\ eValid (drawing 1 0) c (JStr "ab") = true /\ eValid (drawing 1 0) (isConst "y") (JStr "ab") = false /\
  gives (drawing 0 0) n (JStr "y") [] /\ eValid (drawing 0 0) c (JStr "y") = true.
Proof.
  cbv zeta. split; [demo|]. split; [vm_compute; reflexivity|]. split; [vm_compute; reflexivity|]. split; [demo|vm_compute; reflexivity].
Qed.
Print Assumptions C21_two_conditions_refuted.

(* the condition does not hold of the generated string, the else-branch is taken *)
Example C21_case : let n := set_sIf (Some (isConst "q")) (set_sThen (Some (isConst "y")) (set_sElse (Some (isConst "z")) (typed "string" emptyNode))) in
  sRef n = None /\ sAllOf n = None /\ sAnyOf n = None /\ sOneOf n = None /\ sNot n = None /\ sMergedNot n = [] /\ sMergedIf n = [] /\
  sConstraints n = None /\ gives (drawing 1 1) n (JStr "z") [].
Proof. cbv zeta. repeat (split; [reflexivity|]). demo. Qed.

(* ---- C22 negations ---- *)
(* One negated schema, nothing recorded as an error.  Missing from the full statement: several negated
   schemas, a negated format next to a pattern, and the cases refuted below. *)
Theorem C22_not_partial : forall PE GE fuel n x g s s' st v st', sRef n = None -> sAllOf n = None -> sAnyOf n = None -> sOneOf n = None ->
  sMergedNot n = [] -> sConstraints n = None -> sNot n = Some x ->
  sRef x = None -> sAllOf x = None -> sNot x = None -> sMergedNot x = [] ->
  parseNode PE fuel n s = Ok (Good g, s') -> pErrs s' = pErrs s -> yields GE g st v st' ->
  (v = JStr multiFailure /\ emitted EvConstraintFail st st') \/ emitted EvUnchecked st st' \/
  ((forall p t, sPattern x = Some p -> v = JStr t -> eMatch GE p t = false) /\
   (forall f, sPattern x = None -> sFormat x = Some f -> eIsFormat GE f v = false) /\
   (forall w, sEnum x = None -> sConst x = Some w -> marshal v <> marshal w) /\
   (sEnum n = None -> sConst n = None -> forall l w, sEnum x = Some l -> In w l -> marshal v <> marshal w) /\
   (forall k m, In k (get_or (sRequired x) []) -> ~ In k (get_or (sRequired n) []) -> v = JObj m -> assoc k m = None)).
Proof. exact not_values. Qed.
Print Assumptions C22_not_partial.

(* {"type":"object","required":["a"],"not":{"required":["a"]}} is accepted without an error and yields {"a":..} *)
Theorem C22_required_refuted :
  let n := set_sNot (Some (set_sRequired (Some ["a"]) emptyNode)) (typed "object" (set_sRequired (Some ["a"]) emptyNode)) in
  (exists g s', parseNode demoPE 40 n demoP = Ok (Good g, s') /\ pErrs s' = []) /\
  gives (drawing 1 0) n (JObj [("a", JStr "optional_a_1")]) [].
Proof.
  cbv zeta. split; [|demo].
  assert (X : okN (parseNode demoPE 40 (set_sNot (Some (set_sRequired (Some ["a"]) emptyNode)) (typed "object" (set_sRequired (Some ["a"]) emptyNode))) demoP) = true)
    by (vm_compute; reflexivity).
  apply okN_ex in X. exact X.
Qed.
Print Assumptions C22_required_refuted.

Example C22_case :
  let n := set_sNot (Some (set_sRequired (Some ["b"]) emptyNode)) (typed "object" (set_sProperties abc emptyNode)) in
  sRef n = None /\ sAllOf n = None /\ sAnyOf n = None /\ sOneOf n = None /\ sMergedNot n = [] /\ sConstraints n = None /\
  (exists g s', parseNode demoPE 40 n demoP = Ok (Good g, s') /\ pErrs s' = []) /\
  gives (drawing 1 0) n (JObj [("c", JStr "3")]) [].
Proof.
  cbv zeta. split; [reflexivity|]. split; [reflexivity|]. split; [reflexivity|]. split; [reflexivity|]. split; [reflexivity|]. split; [reflexivity|].
  split; [|demo].
  assert (X : okN (parseNode demoPE 40 (set_sNot (Some (set_sRequired (Some ["b"]) emptyNode)) (typed "object" (set_sProperties abc emptyNode))) demoP) = true)
    by (vm_compute; reflexivity).
  apply okN_ex in X. exact X.
Qed.

(* ---- C50 excluded values ---- *)
(* ws: the excluded values.  A value with one of their encodings is not returned. *)
Theorem C50_same_encoding_rejected : forall GE g ws st v st',
  yields GE (GConstrained g [CMulti (mkCC [] [] (map marshal ws) [])]) st v st' ->
  (v = JStr multiFailure /\ emitted EvConstraintFail st st') \/ emitted EvUnchecked st st' \/ (forall w, In w ws -> marshal v <> marshal w).
Proof. exact excluded_dropped. Qed.
Print Assumptions C50_same_encoding_rejected.

(* a value with another encoding is returned as it is *)
Theorem C50_other_encoding_kept : forall GE g ws st v st1, yields GE g st v st1 -> shouldCutoff (eOpts GE) (gCx st1) = false ->
  (forall w, In w ws -> marshal v <> marshal w) ->
  exists st', yields GE (GConstrained g [CMulti (mkCC [] [] (map marshal ws) [])]) st v st' /\ gLog st' = gLog st1.
Proof. exact excluded_kept. Qed.
Print Assumptions C50_other_encoding_kept.

Example C50_case : exists st1, yields (drawing 0 0) (GConst (JArr [JStr "a"; JBool true])) start (JArr [JStr "a"; JBool true]) st1 /\
  shouldCutoff (eOpts (drawing 0 0)) (gCx st1) = false /\
  (forall w, In w [JStr "a"; JArr [JStr "a"]] -> marshal (JArr [JStr "a"; JBool true]) <> marshal w).
Proof.
  eexists. split; [exists 3%nat; vm_compute; reflexivity|]. split; [vm_compute; reflexivity|].
  intros w [<-|[<-|[]]]; vm_compute; discriminate.
Qed.
