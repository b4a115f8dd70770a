(* Property C57: a failure text stands for as many refused candidates as there are attempts. *)
From Coq Require Import ZArith List String Bool.
From Verif Require Import Base Float64 Json Schema Util Options Number Gen GenInv GenValues PState RefPath Merge NotMerge Parse.
From Verif Require Import SpecSchema SpecParse SpecRun MergeProps ValueProps ConstrProps SpecTries Tries TriesMany AllOfValues ValueDemo.
Import ListNotations.
Open Scope string_scope.
Open Scope Z_scope.

(* ---- C57 ---- *)
(* The vocabulary is in SpecTries.v.  Missing from the full statement: nodes with $ref or allOf next to the
   keyword, except for the negations and conditions below allOf at the end. *)
Theorem C57_not_partial : forall PE GE fuel n x g s s' st v st', sRef n = None -> sAllOf n = None -> sAnyOf n = None -> sOneOf n = None ->
  sMergedNot n = [] -> sConstraints n = None -> sNot n = Some x ->
  sRef x = None -> sAllOf x = None -> sNot x = None -> sMergedNot x = [] ->
  parseNode PE fuel n s = Ok (Good g, s') -> yields GE g st v st' ->
  emitted EvUnchecked st st' \/
  exists m g0 k, remainder PE n x m /\ accepted PE m g0 /\ granted GE (oMaximumUniqueGeneratorAttempts (eOpts GE)) st st' k /\
    tries (yields GE g0) (judged (fun w => True) (asksFor GE x)) multiFailure k st v st'.
Proof. exact not_attempts. Qed.
Print Assumptions C57_not_partial.

(* several negations: those of the keyword and those collected from allOf branches *)
Theorem C57_nots_partial : forall PE GE fuel n nots g s s' st v st', sRef n = None -> sAllOf n = None -> sAnyOf n = None -> sOneOf n = None ->
  sConstraints n = None -> nots = (match sNot n with Some x => [x] | None => [] end ++ sMergedNot n)%list -> nots <> [] ->
  (forall x, In x nots -> sRef x = None /\ sAllOf x = None /\ sNot x = None /\ sMergedNot x = []) ->
  parseNode PE fuel n s = Ok (Good g, s') -> yields GE g st v st' ->
  emitted EvUnchecked st st' \/
  exists m g0 k, remainders PE n nots m /\ accepted PE m g0 /\ granted GE (oMaximumUniqueGeneratorAttempts (eOpts GE)) st st' k /\
    tries (yields GE g0) (judged (fun w => True) (fun w => exists x, In x nots /\ asksFor GE x w)) multiFailure k st v st'.
Proof. intros PE GE fuel n nots g s s' st v st' R A AO OO C -> NE P. exact (nots_attempts PE GE fuel n g s s' st v st' R A AO OO C NE P). Qed.
Print Assumptions C57_nots_partial.

Theorem C57_oneOf_partial : forall PE GE n a b r g st v st', sRef n = None -> sAllOf n = None -> sConstraints n = None ->
  sOneOf n = Some (a :: b :: r) -> accepted PE n g -> yields GE g st v st' ->
  emitted EvUnchecked st st' \/
  exists es k, checkedBranches PE (a :: b :: r) es /\ granted GE (oMaximumOneOfAttempts (eOpts GE)) st st' k /\
    tries (fun p w q => (w = JNull /\ emitted EvCutoff p q) \/
             exists sub g', In sub (a :: b :: r) /\ branchOf PE true n sub g' /\ madeBy GE g' w p q)
          (judged (fun w => exactlyOne (fun e => eValid GE e w = true) es) (fun w => ~ exactlyOne (fun e => eValid GE e w = true) es))
          oneOfFailure k st v st'.
Proof. exact oneOf_attempts. Qed.
Print Assumptions C57_oneOf_partial.

Theorem C57_if_partial : forall PE GE n c fuel g s s' st v st', sRef n = None -> sAllOf n = None -> sAnyOf n = None -> sOneOf n = None ->
  sNot n = None -> sMergedNot n = [] -> sMergedIf n = [] -> sConstraints n = None -> sIf n = Some c ->
  parseNode PE fuel n s = Ok (Good g, s') -> yields GE g st v st' ->
  emitted EvUnchecked st st' \/ reports s s' "if" \/
  exists g0 t c' th el k, accepted PE (withoutIf n) g0 /\ compiledAs PE t c (pPath t ++ "/" ++ "/if/0") c' /\
    ifBranch PE (withoutIf n) (sThen n) th /\ ifBranch PE (withoutIf n) (sElse n) el /\
    granted GE (oMaximumIfAttempts (eOpts GE)) st st' k /\
    tries (yields GE g0) (byCondition GE c' th el) ifFailure k st v st'.
Proof. exact if_attempts. Qed.
Print Assumptions C57_if_partial.

(* several conditions: those collected from allOf branches and the one of the keyword.  A candidate goes through
   all of them in some order and is the value that comes out at the end. *)
Theorem C57_ifs_partial : forall PE GE n fuel g s s' st v st', sRef n = None -> sAllOf n = None -> sAnyOf n = None -> sOneOf n = None ->
  sNot n = None -> sMergedNot n = [] -> sConstraints n = None -> conditionsOf n <> [] ->
  parseNode PE fuel n s = Ok (Good g, s') -> yields GE g st v st' ->
  emitted EvUnchecked st st' \/ reports s s' "if" \/
  exists g0 cs k, accepted PE (withoutIf n) g0 /\ Forall2 (conditionMade PE (withoutIf n)) (conditionsOf n) cs /\
    granted GE (oMaximumIfAttempts (eOpts GE)) st st' k /\
    tries (yields GE g0) (byConditions GE cs) ifFailure k st v st'.
Proof. exact ifs_attempts. Qed.
Print Assumptions C57_ifs_partial.

(* How to read it: without an acceptable candidate there is a failure text, and only then. *)
Theorem C57_failure : forall candidate outcome failure k st v st', tries candidate outcome failure k st v st' ->
  (exists a x b c, candidate a x b /\ outcome x (Some v) b c) \/
  (v = JStr failure /\
   exists l, List.length l = k /\ forall x, In x l -> exists a b c, candidate a x b /\ outcome x None b c).
Proof.
  intros candidate outcome failure k st v st' H. induction H as [k st a x b w st' A C A' O|k st a x b c w st' A C A' O H IH|st st' A].
  - left. exists a, x, b, st'. auto.
  - destruct IH as [IH|(-> & l & L & R)]; [auto|right]. split; [reflexivity|]. exists (x :: l). split; [cbn [List.length]; rewrite L; reflexivity|].
    intros y [<-|I]; [exists a, b, c; auto|auto].
  - right. split; [reflexivity|]. exists []. split; [reflexivity|]. intros x [].
Qed.
Print Assumptions C57_failure.

(* {"type":"boolean","not":{"const":true}}: a run that draws true every time fails, one that draws false succeeds *)
Example C57_case :
  let n := set_sNot (Some (set_sConst (Some (JBool true)) emptyNode)) (typed "boolean" emptyNode) in
  let o := set_sOneOf (Some [typed "string" emptyNode; isConst "ab"]) emptyNode in
  let i := set_sIf (Some (isConst "q")) (set_sElse (Some (isConst "q")) (typed "string" emptyNode)) in
  sRef n = None /\ sAllOf n = None /\ sAnyOf n = None /\ sOneOf n = None /\ sMergedNot n = [] /\ sConstraints n = None /\
  (gives (drawing 0 0) n (JBool false) [] \/ gives (drawing 1 0) n (JBool false) []) /\
  (gives (drawing 0 0) n (JStr multiFailure) [EvConstraintFail] \/ gives (drawing 1 0) n (JStr multiFailure) [EvConstraintFail]) /\
  sOneOf o = Some [typed "string" emptyNode; isConst "ab"] /\ gives (drawing 0 0) o (JStr oneOfFailure) [EvOneOfFail] /\
  sIf i = Some (isConst "q") /\ gives (drawing 0 0) i (JStr ifFailure) [EvIfFail].
Proof.
  cbv zeta. repeat (split; [reflexivity|]). split; [first [left; demo|right; demo]|]. split; [first [left; demo|right; demo]|].
  split; [reflexivity|]. split; [demo|]. split; [reflexivity|]. demo.
Qed.
(* {"type":"string","allOf":[{"not":{"const":"ab"}},{"not":{"pattern":"z"}}]}, merged *)
Example C57_nots_case :
  let n := set_sNot (Some (isConst "ab")) (set_sMergedNot [set_sPattern (Some "z") emptyNode] (typed "string" emptyNode)) in
  sRef n = None /\ sAllOf n = None /\ sAnyOf n = None /\ sOneOf n = None /\ sConstraints n = None /\
  gives (drawing 0 0) n (JStr multiFailure) [EvConstraintFail].
Proof. cbv zeta. repeat (split; [reflexivity|]). demo. Qed.
(* {"type":"string","allOf":[{"if":{"const":"z"}}],"if":{"const":"q"},"else":{"const":"q"}}, merged *)
Example C57_ifs_case :
  let n := set_sIf (Some (isConst "q")) (set_sElse (Some (isConst "q")) (set_sMergedIf [mkIf "#" (Some (isConst "z")) None None] (typed "string" emptyNode))) in
  sRef n = None /\ sAllOf n = None /\ sAnyOf n = None /\ sOneOf n = None /\ sNot n = None /\ sMergedNot n = [] /\ sConstraints n = None /\
  List.length (conditionsOf n) = 2%nat /\ gives (drawing 0 0) n (JStr ifFailure) [EvIfFail].
Proof. cbv zeta. repeat (split; [reflexivity|]). demo. Qed.

(* negations and conditions next to allOf and in its branches: those of all of them count *)
Theorem C57_allOf_nots_partial : forall PE GE fuel n subs nodes g s s' st v st', sRef n = None -> sConstraints n = None -> sAllOf n = Some subs ->
  nodes = (subs ++ [set_sAllOf None n])%list ->
  (forall y, In y nodes -> sRef y = None /\ sAllOf y = None /\ sAnyOf y = None /\ sOneOf y = None /\ sConstraints y = None) ->
  (forall y x, In y nodes -> sNot y = Some x \/ In x (sMergedNot y) -> sRef x = None /\ sAllOf x = None /\ sNot x = None /\ sMergedNot x = []) ->
  (exists y, In y nodes /\ (sNot y <> None \/ sMergedNot y <> [])) ->
  parseNode PE fuel n s = Ok (Good g, s') -> yields GE g st v st' ->
  emitted EvUnchecked st st' \/
  exists f s1 m s2 nots m0 g0 k, merge PE f nodes s1 = Ok (m, s2) /\
    (forall x, In x nots <-> exists y, In y nodes /\ (sNot y = Some x \/ In x (sMergedNot y))) /\
    remainders PE m nots m0 /\ accepted PE m0 g0 /\ granted GE (oMaximumUniqueGeneratorAttempts (eOpts GE)) st st' k /\
    tries (yields GE g0) (judged (fun w => True) (fun w => exists x, In x nots /\ asksFor GE x w)) multiFailure k st v st'.
Proof. exact allOf_nots. Qed.
Print Assumptions C57_allOf_nots_partial.
Theorem C57_allOf_ifs_partial : forall PE GE fuel n subs nodes g s s' st v st', sRef n = None -> sConstraints n = None -> sAllOf n = Some subs ->
  nodes = (subs ++ [set_sAllOf None n])%list ->
  (forall y, In y nodes -> (sRef y = None /\ sAllOf y = None /\ sAnyOf y = None /\ sOneOf y = None /\ sConstraints y = None) /\ sNot y = None /\ sMergedNot y = []) ->
  List.concat (map conditionsOf nodes) <> [] ->
  parseNode PE fuel n s = Ok (Good g, s') -> yields GE g st v st' ->
  emitted EvUnchecked st st' \/ reports s s' "if" \/
  exists f s1 m s2 g0 cs k, merge PE f nodes s1 = Ok (m, s2) /\ accepted PE (withoutIf m) g0 /\
    Forall2 (conditionMade PE (withoutIf m)) (List.concat (map conditionsOf nodes)) cs /\
    granted GE (oMaximumIfAttempts (eOpts GE)) st st' k /\ tries (yields GE g0) (byConditions GE cs) ifFailure k st v st'.
Proof. exact allOf_ifs. Qed.
Print Assumptions C57_allOf_ifs_partial.
(* {"type":"string","allOf":[{"not":{"const":"ab"}},{"not":{"pattern":"z"}}]} and
   {"type":"string","allOf":[{"if":{"const":"z"}}],"if":{"const":"q"},"else":{"const":"q"}} *)
Example C57_allOf_case :
  let negated := set_sAllOf (Some [set_sNot (Some (isConst "ab")) emptyNode; set_sNot (Some (set_sPattern (Some "z") emptyNode)) emptyNode]) (typed "string" emptyNode) in
  let conditional := set_sAllOf (Some [set_sIf (Some (isConst "z")) emptyNode]) (set_sIf (Some (isConst "q")) (set_sElse (Some (isConst "q")) (typed "string" emptyNode))) in
  (sRef negated = None /\ sConstraints negated = None /\ gives (drawing 0 0) negated (JStr multiFailure) [EvConstraintFail]) /\
  (sRef conditional = None /\ sConstraints conditional = None /\ gives (drawing 0 0) conditional (JStr ifFailure) [EvIfFail]).
Proof. cbv zeta. split; (split; [reflexivity|]; split; [reflexivity|]; demo). Qed.
