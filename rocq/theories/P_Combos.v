(* C20: anyOf next to oneOf; C32: what a node with allOf generates *)
From Coq Require Import ZArith List String Bool.
From Verif Require Import Base Float64 Json Schema Util Options Number Gen GenInv GenValues PState RefPath Merge NotMerge Parse.
From Verif Require Import SpecSchema SpecParse SpecRun MergeProps ValueProps ConstrProps ValueDemo Combos AllOfValues.
Import ListNotations.
Open Scope string_scope.
Open Scope Z_scope.

(* The value is made from the schema merged with one branch of oneOf and then with one branch of anyOf, and satisfies exactly
   one branch of oneOf.  Missing from the full statement: branches that hold combinations themselves *)
Theorem C20_both_partial : forall PE GE n a b r l g st v st', sRef n = None -> sAllOf n = None -> sConstraints n = None ->
  sOneOf n = Some (a :: b :: r) -> sAnyOf n = Some l -> l <> [] ->
  (forall x, In x (a :: b :: r) -> sRef x = None /\ sAllOf x = None /\ sConstraints x = None /\ sOneOf x = None /\ sAnyOf x = None) ->
  accepted PE n g -> yields GE g st v st' ->
  (v = JStr oneOfFailure /\ emitted EvOneOfFail st st') \/
  (((v = JNull /\ emitted EvCutoff st st') \/
    exists one f s1 base s2 m s3 s4, In one (a :: b :: r) /\ merge PE f [n] s1 = Ok (base, s2) /\ merge PE f [set_sOneOf None base; one] s3 = Ok (m, s4) /\
      ((rejected PE m /\ v = JNull) \/ exists any g', In any l /\ branchOf PE false m any g' /\ madeBy GE g' v st st')) /\
   (emitted EvUnchecked st st' \/
    exists es, checkedBranches PE (a :: b :: r) es /\ exactlyOne (fun e => eValid GE e v = true) es)).
Proof.
  intros PE GE n a b r l g st v st' R A C O L NE B HA HY.
  destruct (oneOf_values _ _ _ _ _ _ _ _ _ _ R A C O HA HY) as [H|[H K]]; [left; exact H|right]. split; [|exact K]. clear K.
  destruct H as [H|(sub & g' & I & (f & s1 & base & s2 & m & s3 & s4 & M1 & M2 & CH) & (x & y & Y & AX & AY))]; [left; exact H|].
  destruct (B _ I) as (R' & A' & C' & O' & L').
  assert (K : combosOf n l (a :: b :: r)) by (unfold combosOf; rewrite R, C, L, O; auto).
  destruct (alone_combos _ _ _ _ _ _ _ _ A K M1) as [(KR & KC & KA & KO) KF].
  assert (K1 : combosOf (set_sOneOf None base) l []). { destruct base. cbn in *. unfold combosOf. cbn. auto. }
  assert (K2 : combosOf sub [] []) by (unfold combosOf; rewrite R', C', L', O'; auto).
  assert (KF' : sAllOf (set_sOneOf None base) = None) by (destruct base; exact KF).
  destruct (both_combos _ _ _ _ _ _ _ _ _ _ _ KF' A' K1 K2 M2) as [(MR & MC & MA & MO) MF]. cbn [app] in MO. rewrite app_nil_r in MA.
  assert (ML : sAnyOf m = Some l) by (destruct (sAnyOf m); cbn in MA; [congruence|exfalso; apply NE; symmetry; exact MA]).
  destruct CH as [CH|[CH ->]].
  - destruct (anyOf_values _ _ _ _ _ _ _ _ MR MF MC MO ML CH Y) as [[-> E]|(any & g2 & IA & BR & (x2 & y2 & Y2 & AX2 & AY2))].
    + left. split; [reflexivity|]. eapply emitted_after; eauto.
    + right. exists sub, f, s1, base, s2, m, s3, s4. split; [exact I|]. split; [exact M1|]. split; [exact M2|]. right. exists any, g2.
      split; [exact IA|]. split; [exact BR|]. exists x2, y2. split; [exact Y2|]. split; eapply after_trans; eauto.
  - right. exists sub, f, s1, base, s2, m, s3, s4. split; [exact I|]. split; [exact M1|]. split; [exact M2|]. left. split; [exact CH|].
    refine (null_value GE v st st' _). exists x, y. auto.
Qed.
Print Assumptions C20_both_partial.
Example C20_both_case :
  let n := set_sAnyOf (Some [set_sMinLength (Some 1) emptyNode; set_sMinLength (Some 2) emptyNode]) (set_sOneOf (Some [isConst "x"; isConst "y"]) emptyNode) in
  sRef n = None /\ sAllOf n = None /\ sConstraints n = None /\
  (forall x, In x [isConst "x"; isConst "y"] -> sRef x = None /\ sAllOf x = None /\ sConstraints x = None /\ sOneOf x = None /\ sAnyOf x = None) /\
  gives (drawing 1 0) n (JStr "y") [].
Proof.
  cbv zeta. split; [reflexivity|]. split; [reflexivity|]. split; [reflexivity|]. split.
  - intros x [<-|[<-|[]]]; repeat split.
  - demo.
Qed.

(* A node with allOf generates exactly what the merge of its branches with the rest of the node generates: all that the other
   theorems say of the merged node holds of its values. *)
Theorem C32_generated : forall PE fuel n subs g s s', sRef n = None -> sConstraints n = None -> sAllOf n = Some subs ->
  parseNode PE fuel n s = Ok (Good g, s') ->
  exists f m s1 s2 t g' t', merge PE f (subs ++ [set_sAllOf None n]) s1 = Ok (m, s2) /\
    parseNode PE f m t = Ok (Good g', t') /\ (forall k, reports t t' k -> reports s s' k) /\
    forall GE st v st', yields GE g st v st' <-> yields GE g' st v st'.
Proof. exact allOf_values. Qed.
Print Assumptions C32_generated.
Example C32_generated_case : let n := set_sAllOf (Some [isConst "x"; set_sMaxLength (Some 2) emptyNode]) (typed "string" emptyNode) in
  sRef n = None /\ sConstraints n = None /\ gives (drawing 0 0) n (JStr "x") [].
Proof. cbv zeta. split; [reflexivity|]. split; [reflexivity|]. demo. Qed.
