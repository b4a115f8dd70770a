(* Properties C36-C38: applying a negated schema x to a schema n gives a schema m. *)
From Coq Require Import ZArith Reals List String Bool.
From Flocq Require Import Core BinarySingleNaN.
From Verif Require Import Base Float64 Json Schema Util PState NotMerge SpecNumber SpecSchema SpecParse MergeProps NotProps.
Import ListNotations.
Open Scope string_scope.
Open Scope Z_scope.

(* ---- C36 integer bounds ---- *)
(* The four kinds of bounds, for all counts.  Missing from the full statement: bounds of 2^31-12 and more, see below. *)
Theorem C36_negated_int_bounds_partial : forall E fuel n x s m c s' len items contains props,
  notMerge E fuel n x s = Ok ((m, c), s') ->
  0 <= len -> 0 <= items -> 0 <= contains -> 0 <= props ->
  (forall v, In (Some v) [sMinLength n; sMaxLength n; sMinLength x; sMaxLength x; sMinItems n; sMaxItems n; sMinItems x; sMaxItems x;
                          sMinContains n; sMaxContains n; sMinContains x; sMaxContains x;
                          sMinProperties n; sMaxProperties n; sMinProperties x; sMaxProperties x] -> v < 2 ^ 31 - 12) ->
  reports s s' "type" \/
  ((okRange (sMinLength m) (sMaxLength m) len -> okRange (sMinLength n) (sMaxLength n) len /\
     (sMinLength x <> None \/ sMaxLength x <> None -> ~ okRange (sMinLength x) (sMaxLength x) len)) \/ reports s s' "maxLength") /\
  ((okRange (sMinItems m) (sMaxItems m) items -> okRange (sMinItems n) (sMaxItems n) items /\
     (sMinItems x <> None \/ sMaxItems x <> None -> ~ okRange (sMinItems x) (sMaxItems x) items)) \/ reports s s' "maxItems") /\
  ((okRange (sMinContains m) (sMaxContains m) contains -> okRange (sMinContains n) (sMaxContains n) contains /\
     (sMinContains x <> None \/ sMaxContains x <> None -> ~ okRange (sMinContains x) (sMaxContains x) contains)) \/
   reports s s' "maxContains" \/ reports s s' "not/minContains") /\
  ((okRange (sMinProperties m) (sMaxProperties m) props -> okRange (sMinProperties n) (sMaxProperties n) props /\
     (sMinProperties x <> None \/ sMaxProperties x <> None -> ~ okRange (sMinProperties x) (sMaxProperties x) props)) \/ reports s s' "maxProperties").
Proof. exact notMerge_int_bounds. Qed.
Print Assumptions C36_negated_int_bounds_partial.

(* a negated minLength of 2^31 is dropped without an error *)
Theorem C36_large_bounds_refuted : exists m c s', notMerge demoPE 5 (typed "string" emptyNode) nlong demoP = Ok ((m, c), s') /\ pErrs s' = [] /\
  sMinLength m = None /\ sMaxLength m = None /\ okRange (sMinLength nlong) (sMaxLength nlong) (2 ^ 31).
Proof. exact int_bounds_lost. Qed.
Print Assumptions C36_large_bounds_refuted.

Example C36_case : exists m c s',
  notMerge demoPE 5 (typed "string" (set_sMinLength (Some 2) (set_sMaxLength (Some 9) emptyNode))) (set_sMinLength (Some 5) emptyNode) demoP = Ok ((m, c), s') /\
  pErrs s' = [] /\ sMinLength m = Some 2 /\ sMaxLength m = Some 4.
Proof. exact int_bounds_case. Qed.

(* ---- C37 number bounds ---- *)
(* integer bounds, when integers are among the remaining types: for every real z *)
Theorem C37_negated_integer_bounds_partial : forall E fuel n x s m c s' z,
  notMerge E fuel n x s = Ok ((m, c), s') -> properType (sType n) ->
  sMultipleOf x = None /\ match sType x with None => True | Some _ => properType (sType x) /\ ~ In "integer" (typeNames (sType x)) end ->
  In "integer" (typeNames (sType m)) ->
  (forall a, In (Some a) ([sMinimum n; sMaximum n; sExclusiveMinimum n; sExclusiveMaximum n] ++ [sMinimum x; sMaximum x; sExclusiveMinimum x; sExclusiveMaximum x])%list ->
     is_finite a = true /\ exists k, B2R a = IZR k /\ Z.abs k <= 2 ^ 50) ->
  reports s s' "type" \/ reports s s' "maximum" \/
  (okBounds m z -> okBounds n z /\ ((exists a, In (Some a) [sMinimum x; sMaximum x; sExclusiveMinimum x; sExclusiveMaximum x]) -> ~ okBounds x z)).
Proof. exact notMerge_number_int. Qed.
Print Assumptions C37_negated_integer_bounds_partial.

(* bounds up to 127, when only numbers remain: for every real z.  Missing: larger bounds (refuted below), exclusive negated bounds. *)
Theorem C37_negated_number_bounds_partial : forall E fuel n x s m c s' z,
  notMerge E fuel n x s = Ok ((m, c), s') -> properType (sType n) ->
  sMultipleOf x = None /\ match sType x with None => True | Some _ => properType (sType x) /\ ~ In "integer" (typeNames (sType x)) end ->
  ~ In "integer" (typeNames (sType m)) -> sExclusiveMinimum x = None -> sExclusiveMaximum x = None ->
  (forall a, In (Some a) ([sMinimum n; sMaximum n; sExclusiveMinimum n; sExclusiveMaximum n] ++ [sMinimum x; sMaximum x; sExclusiveMinimum x; sExclusiveMaximum x])%list ->
     is_finite a = true /\ (Rabs (B2R a) <= 127)%R) ->
  reports s s' "type" \/ reports s s' "maximum" \/
  (okBounds m z -> okBounds n z /\ ((exists a, In (Some a) [sMinimum x; sMaximum x; sExclusiveMinimum x; sExclusiveMaximum x]) -> ~ okBounds x z)).
Proof. exact notMerge_number_real. Qed.
Print Assumptions C37_negated_number_bounds_partial.

Theorem C37_large_number_bounds_refuted : exists m c s', notMerge demoPE 5 (typed "number" emptyNode) n1000 demoP = Ok ((m, c), s') /\ pErrs s' = [] /\
  okBounds m 1000 /\ okBounds n1000 1000.
Proof. exact number_bounds_lost. Qed.
Print Assumptions C37_large_number_bounds_refuted.

Example C37_case_integer :
  let n := typed "integer" (set_sMinimum (Some (fofZ 3)) emptyNode) in let x := set_sExclusiveMinimum (Some (fofZ 10)) emptyNode in
  properType (sType n) /\ plainNumber x /\
  (forall a, In (Some a) (boundList n ++ boundList x) -> is_finite a = true /\ exists k, B2R a = IZR k /\ (Z.abs k <= 2 ^ 50)%Z) /\
  exists m c s', notMerge demoPE 5 n x demoP = Ok ((m, c), s') /\ pErrs s' = [] /\ In "integer" (typeNames (sType m)).
Proof. exact number_int_case. Qed.
Example C37_case_number :
  let n := typed "number" (set_sExclusiveMaximum (Some (fofZ 30)) emptyNode) in let x := set_sMinimum (Some (fofZ 10)) emptyNode in
  properType (sType n) /\ plainNumber x /\ sExclusiveMinimum x = None /\ sExclusiveMaximum x = None /\
  (forall a, In (Some a) (boundList n ++ boundList x) -> is_finite a = true /\ (Rabs (B2R a) <= 127)%R) /\
  exists m c s', notMerge demoPE 5 n x demoP = Ok ((m, c), s') /\ pErrs s' = [] /\ ~ In "integer" (typeNames (sType m)).
Proof. exact number_real_case. Qed.

(* ---- C38 types ---- *)
Theorem C38_negated_types_removed : forall E fuel n t s m c s',
  notMerge E fuel n (set_sType (Some t) emptyNode) s = Ok ((m, c), s') -> properType (sType n) -> properType (Some t) ->
  let negated u := In u (typeNames (Some t)) \/ (u = "integer" /\ In "number" (typeNames (Some t))) in
  (reports s s' "type" /\ forall u, In u (typeNames (sType n)) -> negated u) \/
  (properType (sType m) /\ (exists u, In u (typeNames (sType m))) /\
   forall u, In u (typeNames (sType m)) <-> In u (typeNames (sType n)) /\ ~ negated u).
Proof. exact notMerge_type. Qed.
Print Assumptions C38_negated_types_removed.

(* the same for values; a negated "integer" alone leaves "number" in place *)
Theorem C38_negated_types_values : forall E fuel n t s m c s' v,
  notMerge E fuel n (set_sType (Some t) emptyNode) s = Ok ((m, c), s') -> properType (sType n) -> properType (Some t) ->
  (In "integer" (typeNames (Some t)) -> In "number" (typeNames (Some t))) ->
  reports s s' "type" \/ (okType (sType m) v -> okType (sType n) v /\ ~ okType (Some t) v).
Proof. exact notMerge_type_values. Qed.
Print Assumptions C38_negated_types_values.

(* types are removed only by a negated schema that says nothing else: one with any of these keywords keeps
   every type *)
Theorem C38_types_kept : forall E fuel n x s m c s',
  notMerge E fuel n x s = Ok ((m, c), s') -> properType (sType n) ->
  sMinLength x <> None \/ sMaxLength x <> None \/ sPattern x <> None \/ sFormat x <> None \/
  sMinimum x <> None \/ sMaximum x <> None \/ sExclusiveMinimum x <> None \/ sExclusiveMaximum x <> None \/ sMultipleOf x <> None \/
  sProperties x <> None \/ sRequired x <> None \/ sMinProperties x <> None \/ sMaxProperties x <> None \/
  sItems x <> None \/ sMinItems x <> None \/ sMaxItems x <> None \/ sPrefixItems x <> None \/ sConst x <> None \/ sEnum x <> None ->
  typeNames (sType m) = typeNames (sType n).
Proof.
  intros E fuel n x s m c s' H P K. refine (proj2 (notMerge_type_kept E fuel n x s m c s' H P _)). unfold hasValueConstraints.
  repeat (destruct K as [K|K]); (match type of K with ?o <> None => destruct o; [|congruence] end); cbn [is_some]; rewrite ?orb_true_r; reflexivity.
Qed.
Print Assumptions C38_types_kept.

Example C38_types_kept_case : let x := typed "string" (set_sEnum (Some [JStr "a"]) emptyNode) in
  sEnum x <> None /\ exists m c s', notMerge demoPE 5 emptyNode x demoP = Ok ((m, c), s') /\ pErrs s' = [] /\
    typeNames (sType m) = allTypes.
Proof.
  cbv zeta. split; [discriminate|].
  assert (H : okM (notMerge demoPE 5 emptyNode (typed "string" (set_sEnum (Some [JStr "a"]) emptyNode)) demoP) (fun _ s => match pErrs s with [] => true | _ => false end) = true) by (vm_compute; reflexivity).
  apply okM_ex in H. destruct H as ([m c] & s & H1 & H2). exists m, c, s. split; [exact H1|]. split; [destruct (pErrs s); [reflexivity|discriminate H2]|].
  refine (proj2 (notMerge_type_kept _ _ _ _ _ _ _ _ H1 Logic.I eq_refl)).
Qed.

(* an empty list of types says as much as none, on either side *)
Theorem C38_empty_types : forall E fuel n x s m c s',
  let silent t := t = None \/ t = Some (mkMT "" None) \/ t = Some (mkMT "" (Some [])) in
  notMerge E fuel n x s = Ok ((m, c), s') -> silent (sType n) -> silent (sType x) -> typeNames (sType m) = allTypes.
Proof.
  intros E fuel n x s m c s' silent H P Q. destruct fuel as [|f]; [discriminate|]. cbn [notMerge] in H.
  assert (R : resolveType n x = Some (mkMT "" (Some allTypes))).
  { unfold resolveType. assert (A : nodeTypes x true = []) by (unfold nodeTypes; destruct Q as [-> | [-> | ->]]; reflexivity).
    assert (B : nodeTypes n false = allTypes) by (unfold nodeTypes; destruct P as [-> | [-> | ->]]; reflexivity). rewrite A, B. reflexivity. }
  destruct (notMerge_ok E f _ _ _ _ _ _ H) as [(HN & _)|(t & Ht & Em & _)]; rewrite R in *; [discriminate HN|]. injection Ht as <-. rewrite Em. reflexivity.
Qed.
Print Assumptions C38_empty_types.
(* {"type":[],"not":{"minLength":2}} *)
Example C38_empty_types_case : let n := set_sType (Some (mkMT "" (Some []))) emptyNode in
  exists m c s', notMerge demoPE 5 n (set_sMinLength (Some 2) emptyNode) demoP = Ok ((m, c), s') /\ pErrs s' = [].
Proof.
  cbv zeta.
  assert (H : okM (notMerge demoPE 5 (set_sType (Some (mkMT "" (Some []))) emptyNode) (set_sMinLength (Some 2) emptyNode) demoP) (fun _ s => match pErrs s with [] => true | _ => false end) = true) by (vm_compute; reflexivity).
  apply okM_ex in H. destruct H as ([m c] & s & H1 & H2). exists m, c, s. split; [exact H1|]. destruct (pErrs s); [reflexivity|discriminate H2].
Qed.

Example C38_case : exists m c s', notMerge demoPE 5 emptyNode (typed "number" emptyNode) demoP = Ok ((m, c), s') /\ pErrs s' = [] /\
  typeNames (sType m) = ["object"; "array"; "string"; "boolean"; "null"].
Proof. exact type_case. Qed.
