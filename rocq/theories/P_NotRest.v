(* C22, C32, C36 and C37 continued: negated multiples and enums, several negations, negations inside
   properties, and what merging keeps. *)
From Coq Require Import ZArith Reals List String Bool Lia Lra.
From Flocq Require Import Core BinarySingleNaN.
From Verif Require Import Base Float64 Json Schema Util Options Number Gen GenInv Codec PState RefPath Merge NotMerge Parse PFacts ParseKeep.
From Verif Require Import MergeFacts MergeProps MergeValid SpecMerge SpecNumber SpecSchema SpecParse SpecRun NotProps SpecNegate ValueProps ValueDemo P_Sound P_Negate.
From Verif Require NotKeep NotRest MergeKeep.
Import ListNotations.
Open Scope string_scope.
Open Scope Z_scope.

(* ---- C37 negated multiples ---- *)
(* A negated multipleOf that is not reported leaves a list of numbers, none of them a multiple.  Missing:
   schemas with an enum of their own, and the list can be empty (refuted below). *)
Theorem C37_negated_multiples_partial : forall E fuel n x q s m c s',
  notMerge E fuel n x s = Ok ((m, c), s') -> pErrs s' = pErrs s -> sEnum n = None ->
  sMultipleOf x = Some q -> is_finite q = true -> B2R q <> 0%R ->
  exists l, sEnum m = Some l /\ forall w, In w l -> exists f, w = JFloat f /\ forall z, numberValue w z -> ~ okMultipleOf x z.
Proof. exact NotRest.notMerge_multiples. Qed.
Print Assumptions C37_negated_multiples_partial.

(* integers from a lower bound on: the list holds integers within the bounds that are no multiples *)
Theorem C37_negated_multiples_bounds_partial : forall E fuel n x q s m c s',
  notMerge E fuel n x s = Ok ((m, c), s') -> pErrs s' = pErrs s -> properType (sType n) -> sEnum n = None ->
  sMultipleOf x = Some q -> is_finite q = true -> B2R q <> 0%R -> In "integer" (typeNames (sType m)) -> sMultipleOf n = None -> sType x = None ->
  (forall o, In o [sMinimum x; sMaximum x; sExclusiveMinimum x; sExclusiveMaximum x] -> o = None) ->
  (sMinimum n <> None \/ sExclusiveMinimum n <> None) ->
  (forall a, In (Some a) [sMinimum n; sMaximum n; sExclusiveMinimum n; sExclusiveMaximum n] -> is_finite a = true /\ exists k, B2R a = IZR k /\ Z.abs k <= 2 ^ 50) ->
  exists l, sEnum m = Some l /\ forall w, In w l -> exists j, numberValue w (IZR j) /\ okBounds n (IZR j) /\ ~ okMultipleOf x (IZR j).
Proof.
  intros E fuel n x q s m c s' H Q PT EN EX F N TI MN TX NB LO B. cbn [In] in NB, B.
  assert (J : forall o, In o [sMinimum n; sMaximum n; sExclusiveMinimum n; sExclusiveMaximum n] -> intB o).
  { intros o I a ->. apply B. exact I. }
  eapply NotRest.notMerge_integers; eauto; try (apply NB; tauto); apply J; cbn; tauto.
Qed.
Print Assumptions C37_negated_multiples_bounds_partial.

Definition even : schemaNode := set_sMultipleOf (Some (fofZ 2)) emptyNode.
Definition upTo (a b : Z) : schemaNode := set_sMinimum (Some (fofZ a)) (set_sMaximum (Some (fofZ b)) (typed "integer" emptyNode)).
Lemma two_fin : is_finite (fofZ 2) = true /\ B2R (fofZ 2) <> 0%R.
Proof. destruct (FloatFacts.fofZ_exact 2 ltac:(lia)) as [V F]. split; [exact F|]. unfold FloatFacts.val in V. rewrite V. simpl. lra. Qed.
Example C37_case_multiples :
  let n := upTo 4 9 in
  properType (sType n) /\ sEnum n = None /\ (is_finite (fofZ 2) = true /\ B2R (fofZ 2) <> 0%R) /\ sMultipleOf even = Some (fofZ 2) /\ sMultipleOf n = None /\ sType even = None /\
  (forall o, In o [sMinimum even; sMaximum even; sExclusiveMinimum even; sExclusiveMaximum even] -> o = None) /\ sMinimum n <> None /\
  (forall a, In (Some a) [sMinimum n; sMaximum n; sExclusiveMinimum n; sExclusiveMaximum n] -> is_finite a = true /\ exists k, B2R a = IZR k /\ Z.abs k <= 2 ^ 50) /\
  match notMerge demoPE 5 n even demoP with
  | Ok ((m, c), s') => (match pErrs s' with [] => true | _ => false end) && mem_string "integer" (typeNames (sType m)) &&
      match sEnum m with Some [JFloat a; JFloat b; JFloat d] => feqb a (fofZ 5) && feqb b (fofZ 7) && feqb d (fofZ 9) | _ => false end
  | _ => false
  end = true.
Proof.
  cbv zeta. split; [discriminate|]. split; [reflexivity|]. split; [exact two_fin|]. split; [reflexivity|]. split; [reflexivity|]. split; [reflexivity|].
  split; [intros o [<-|[<-|[<-|[<-|[]]]]]; reflexivity|]. split; [discriminate|]. split; [|vm_compute; reflexivity].
  intros a [X|[X|[X|[X|[]]]]]; [| |discriminate X|discriminate X].
  - destruct (FloatFacts.fofZ_exact 4 ltac:(lia)) as [V F]. assert (EA : fofZ 4 = a) by exact (f_equal (fun o => get_or o a) X). rewrite <- EA. split; [exact F|]. exists 4. split; [exact V|lia].
  - destruct (FloatFacts.fofZ_exact 9 ltac:(lia)) as [V F]. assert (EA : fofZ 9 = a) by exact (f_equal (fun o => get_or o a) X). rewrite <- EA. split; [exact F|]. exists 9. split; [exact V|lia].
Qed.

(* {"type": "integer", "minimum": 4, "maximum": 4, "not": {"multipleOf": 2}}: when no number is left, the
   bounds and the negation are dropped without a report, and 0 is generated *)
Theorem C37_no_number_left_refuted :
  let n := set_sNot (Some even) (upTo 4 4) in
  generates n (JInt 0) /\ (exists z, numberValue (JInt 0) z /\ ~ okBounds (upTo 4 4) z /\ okMultipleOf even z).
Proof.
  cbv zeta. split; [apply (generates_by 40 60 4 3); vm_compute; reflexivity|].
  exists 0%R. split; [reflexivity|]. split.
  - intros (L & _). specialize (L (fofZ 4) eq_refl). destruct (FloatFacts.fofZ_exact 4 ltac:(lia)) as [V _]. unfold FloatFacts.val in V. rewrite V in L. simpl in L. lra.
  - intros q _. exists 0. simpl. lra.
Qed.
Print Assumptions C37_no_number_left_refuted.

(* ---- C22 the values left of an enum ---- *)
(* exactly the values of the schema's enum that are not encoded like a value of the negated enum *)
Theorem C22_enum_left_partial : forall E fuel n x s m c s' l,
  notMerge E fuel n x s = Ok ((m, c), s') -> pErrs s' = pErrs s -> sEnum n = Some l -> l <> [] ->
  (forall v, In v l -> exists j, decAny j = Some v) ->
  exists l', sEnum m = Some l' /\ forall v, In v l' <-> In v l /\ ~ exists w, In w (get_or (sEnum x) []) /\ marshal v = marshal w.
Proof. exact NotRest.notMerge_enum. Qed.
Print Assumptions C22_enum_left_partial.

Example C22_case_enum :
  let n := set_sEnum (Some [JStr "a"; JBool true; JNull]) emptyNode in let x := set_sEnum (Some [JBool true; JStr "z"]) emptyNode in
  (forall v, In v [JStr "a"; JBool true; JNull] -> exists j, decAny j = Some v) /\
  match notMerge demoPE 5 n x demoP with
  | Ok ((m, c), s') => match pErrs s', sEnum m with [], Some [JStr a; JNull] => String.eqb a "a" | _, _ => false end
  | _ => false
  end = true.
Proof.
  cbv zeta. split; [|vm_compute; reflexivity].
  intros v [<-|[<-|[<-|[]]]]; eexists; [apply (CodecFacts.decAny_enc (JStr "a"))|apply (CodecFacts.decAny_enc (JBool true))|apply (CodecFacts.decAny_enc JNull)]; exact Logic.I.
Qed.

(* ---- C22 several negations ---- *)
(* x ranges over all negations of n: its own and those collected from allOf branches *)
Theorem C22_several_partial : forall PE GE fuel n g s s' st v st', sRef n = None -> sAllOf n = None -> sAnyOf n = None -> sOneOf n = None ->
  sConstraints n = None -> (sNot n <> None \/ sMergedNot n <> []) ->
  (forall x, sNot n = Some x \/ In x (sMergedNot n) -> sRef x = None /\ sAllOf x = None /\ sNot x = None /\ sMergedNot x = []) ->
  parseNode PE fuel n s = Ok (Good g, s') -> pErrs s' = pErrs s -> yields GE g st v st' ->
  (v = JStr multiFailure /\ emitted EvConstraintFail st st') \/ emitted EvUnchecked st st' \/
  forall x, sNot n = Some x \/ In x (sMergedNot n) ->
   (forall p t, sPattern x = Some p -> v = JStr t -> eMatch GE p t = false) /\
   (forall f, sPattern x = None -> sFormat x = Some f -> eIsFormat GE f v = false) /\
   (forall w, sEnum x = None -> sConst x = Some w -> marshal v <> marshal w) /\
   (forall k m, In k (get_or (sRequired x) []) -> ~ In k (get_or (sRequired n) []) -> v = JObj m -> assoc k m = None).
Proof.
  intros PE GE fuel n g s s' st v st' R A Y O C NE PL H Q HY.
  destruct (NotRest.nots_values PE GE fuel n g s s' st v st' R A Y O C) as [X|[X|X]]; auto.
  - intros X. destruct NE as [NE|NE].
    + destruct (sNot n) as [x|] eqn:EN; [|congruence]. assert (I : In x (collectNots n)) by (apply MergeKeep.nots_in; auto). rewrite X in I. exact I.
    + destruct (sMergedNot n) as [|x l] eqn:EN; [congruence|]. assert (I : In x (collectNots n)) by (apply MergeKeep.nots_in; right; rewrite EN; left; reflexivity). rewrite X in I. exact I.
  - intros x I. apply MergeKeep.nots_in in I. exact (PL x I).
  - right. right. intros x I. apply X. apply MergeKeep.nots_in. exact I.
Qed.
Print Assumptions C22_several_partial.

(* the schema merged from {"type":"object","properties":{a,b,c},"not":{"required":["b"]}} and {"not":{"required":["c"]}} *)
Definition needs (k : string) : schemaNode := set_sRequired (Some [k]) emptyNode.
Definition abcd : schemaNode := typed "object" (set_sProperties (Some [("a", typed "string" emptyNode); ("b", typed "string" emptyNode); ("c", typed "string" emptyNode)]) emptyNode).
Definition twoNots : schemaNode := set_sMergedNot [needs "c"] (set_sNot (Some (needs "b")) abcd).
Example C22_case_several :
  sRef twoNots = None /\ sAllOf twoNots = None /\ sAnyOf twoNots = None /\ sOneOf twoNots = None /\ sConstraints twoNots = None /\ sNot twoNots <> None /\
  (forall x, sNot twoNots = Some x \/ In x (sMergedNot twoNots) -> sRef x = None /\ sAllOf x = None /\ sNot x = None /\ sMergedNot x = []) /\
  generates twoNots (JObj [("a", JStr "ab")]).
Proof.
  do 5 (split; [reflexivity|]). split; [discriminate|]. split.
  - intros x [X|[<-|[]]]; [injection X as <-|]; cbn; auto.
  - apply (generates_by 40 60 1 0). vm_compute. reflexivity.
Qed.

(* the sizes: all negations are obeyed, up to the sizes named *)
Theorem C36_several_negations_partial : forall E fuel xs n s m c s' len items contains props,
  applyNots E fuel n emptyColl xs s = Ok ((m, c), s') -> pErrs s' = pErrs s ->
  0 <= len -> 0 <= items -> 0 <= contains -> 0 <= props ->
  (forall y v, y = n \/ In y xs ->
     In (Some v) [sMinLength y; sMaxLength y; sMinItems y; sMaxItems y; sMinContains y; sMaxContains y; sMinProperties y; sMaxProperties y] ->
     v < 2 ^ 31 - 12 - 2 * Z.of_nat (List.length xs)) ->
  2 * Z.of_nat (List.length xs) <= 2 ^ 31 - 12 ->
  (okRange (sMinLength m) (sMaxLength m) len -> okRange (sMinLength n) (sMaxLength n) len /\
     forall x, In x xs -> sMinLength x <> None \/ sMaxLength x <> None -> ~ okRange (sMinLength x) (sMaxLength x) len) /\
  (okRange (sMinItems m) (sMaxItems m) items -> okRange (sMinItems n) (sMaxItems n) items /\
     forall x, In x xs -> sMinItems x <> None \/ sMaxItems x <> None -> ~ okRange (sMinItems x) (sMaxItems x) items) /\
  (okRange (sMinContains m) (sMaxContains m) contains -> okRange (sMinContains n) (sMaxContains n) contains /\
     forall x, In x xs -> sMinContains x <> None \/ sMaxContains x <> None -> ~ okRange (sMinContains x) (sMaxContains x) contains) /\
  (okRange (sMinProperties m) (sMaxProperties m) props -> okRange (sMinProperties n) (sMaxProperties n) props /\
     forall x, In x xs -> sMinProperties x <> None \/ sMaxProperties x <> None -> ~ okRange (sMinProperties x) (sMaxProperties x) props).
Proof. intros E fuel xs n s m c s' len items contains props H Q L1 L2 L3 L4 B HL. exact (NotRest.nots_ranges E fuel xs n _ s m c s' len items contains props H Q L1 L2 L3 L4 B HL). Qed.
Print Assumptions C36_several_negations_partial.

Definition longer (k : Z) : schemaNode := set_sMinLength (Some k) emptyNode.
Definition shorter (k : Z) : schemaNode := set_sMaxLength (Some k) emptyNode.
Example C36_case_several :
  match applyNots demoPE 5 (typed "string" emptyNode) emptyColl [longer 9; shorter 3] demoP with
  | Ok ((m, c), s') => match pErrs s', sMinLength m, sMaxLength m with [], Some a, Some b => (a =? 5) && (b =? 8) | _, _, _ => false end
  | _ => false
  end = true.
Proof. vm_compute. reflexivity. Qed.

(* ---- C22 negations inside properties ---- *)
(* A property k that the schema n describes by p and the negated schema x by q becomes r.  The values made
   for r are free of what q names. *)
Theorem C22_properties_partial : forall PE GE fuel n x s m c s' k p q r,
  notMerge PE fuel n x s = Ok ((m, c), s') -> pErrs s' = pErrs s ->
  assoc k (get_or (sProperties n) []) = Some p -> assoc k (get_or (sProperties x) []) = Some q -> assoc k (get_or (sProperties m) []) = Some r ->
  forall f g t t' st v st', parseNode PE f r t = Ok (Good g, t') -> pErrs t' = pErrs t -> yields GE g st v st' ->
  (v = JStr multiFailure /\ emitted EvConstraintFail st st') \/ emitted EvUnchecked st st' \/
  ((forall p0 u, sPattern q = Some p0 -> v = JStr u -> eMatch GE p0 u = false) /\
   (forall f0, sPattern q = None -> sFormat q = Some f0 -> eIsFormat GE f0 v = false) /\
   (sEnum p = None -> sConst p = None -> forall l w, sEnum q = Some l -> In w l -> marshal v <> marshal w) /\
   (forall w, sConst q = Some w -> marshal v <> marshal w) /\
   (forall k0 o, In k0 (get_or (sRequired q) []) -> ~ In k0 (get_or (sRequired p) []) -> v = JObj o -> assoc k0 o = None)).
Proof.
  intros PE GE fuel n x s m c s' k p q r H Q HP HQ HR f g t t' st v st' H1 Q1 HY.
  destruct (NotRest.property_coll PE fuel n x s m c s' k p q r H Q HP HQ HR) as (kc & C & X & _).
  destruct (NotRest.carried_values PE GE f r kc g t t' st v st' C H1 Q1 HY) as [A|[A|A]]; auto.
  right. right. exact (NotSound.passed_values GE p q kc v X A).
Qed.
Print Assumptions C22_properties_partial.

(* {"properties": {"a": string}, "not": {"properties": {"a": {"const": "1"}}}} *)
Definition oneA (q : schemaNode) : schemaNode := typed "object" (set_sProperties (Some [("a", q)]) emptyNode).
Definition notA : schemaNode := set_sProperties (Some [("a", set_sConst (Some (JStr "1")) emptyNode)]) emptyNode.
Example C22_case_properties :
  match notMerge demoPE 5 (oneA (typed "string" emptyNode)) notA demoP with
  | Ok ((m, c), s') => match pErrs s', assoc "a" (get_or (sProperties m) []) with
      | [], Some r => match sConstraints r with Some kc => existsb (same_text (marshal (JStr "1"))) (ccValues kc) && okN (parseNode demoPE 40 r demoP) | None => false end
      | _, _ => false
      end
  | _ => false
  end = true.
Proof. vm_compute. reflexivity. Qed.

(* ---- what merging keeps ---- *)
(* A merged schema has every negation of every branch, and every pattern, format, value and name excluded
   by a branch. *)
Theorem C22_merge_keeps : forall E fuel nodes s m s',
  (forall n, In n nodes -> sRef n = None /\ sAllOf n = None) -> merge E fuel nodes s = Ok (m, s') -> forall n, In n nodes ->
  (forall x, sNot n = Some x \/ In x (sMergedNot n) -> sNot m = Some x \/ In x (sMergedNot m)) /\
  (forall c, sConstraints n = Some c -> exists c', sConstraints m = Some c' /\
     incl (ccRegex c) (ccRegex c') /\ incl (ccFormat c) (ccFormat c') /\ incl (ccValues c) (ccValues c') /\ incl (ccProps c) (ccProps c')).
Proof.
  intros E fuel nodes s m s' P H n I. destruct (MergeKeep.merge_keeps E fuel nodes s m s' P H n I) as [_ K2 K3]. split.
  - intros x X. apply MergeKeep.nots_in. apply K2. apply MergeKeep.nots_in. exact X.
  - intros c C. destruct (K3 c C) as (c' & C' & W1 & W2 & W3 & W4). exists c'. split; [exact C'|]. unfold incl. auto.
Qed.
Print Assumptions C22_merge_keeps.

(* A merged schema has every condition (if, then, else) of every branch. *)
Theorem C32_conditions_kept : forall E fuel nodes s m s',
  (forall n, In n nodes -> sRef n = None /\ sAllOf n = None) -> merge E fuel nodes s = Ok (m, s') -> forall n, In n nodes ->
  (sIf n <> None -> exists st, In st (sMergedIf m) /\ ifIf st = sIf n /\ ifThen st = sThen n /\ ifElse st = sElse n) /\
  (forall st, In st (sMergedIf n) -> exists st', In st' (sMergedIf m) /\ ifIf st' = ifIf st /\ ifThen st' = ifThen st /\ ifElse st' = ifElse st).
Proof.
  intros E fuel nodes s m s' P H n I. destruct (MergeKeep.merge_keeps E fuel nodes s m s' P H n I) as [K1 _ _]. split.
  - intros D. apply K1. right. auto.
  - intros st J. apply K1. left. exists st. auto.
Qed.
Print Assumptions C32_conditions_kept.

(* Two branches that give different patterns, formats, lengths or uniqueItems: one of them is lost, and this
   is reported. *)
Theorem C32_conflicts_reported : forall E fuel nodes s m s',
  (forall n, In n nodes -> sRef n = None /\ sAllOf n = None) -> merge E fuel nodes s = Ok (m, s') ->
  forall n1 n2, In n1 nodes -> In n2 nodes ->
  let reported k := exists doc path, In ((doc, path ++ "/config_merge_error"), k) (pErrs s') in
  (forall a b, sPattern n1 = Some a -> sPattern n2 = Some b -> a <> b -> reported "pattern") /\
  (forall a b, sFormat n1 = Some a -> sFormat n2 = Some b -> a <> b -> reported "format") /\
  (forall a b, sLength n1 = Some a -> sLength n2 = Some b -> a <> b -> reported "length") /\
  (forall a b, sUniqueItems n1 = Some a -> sUniqueItems n2 = Some b -> a <> b -> reported "uniqueItems").
Proof.
  intros E fuel nodes s m s' P H n1 n2 I1 I2 reported.
  assert (W : forall A (eqb : A -> A -> bool) x y, (forall a b, eqb a b = true <-> a = b) -> x <> y -> differ eqb (Some x) (Some y) = true).
  { intros A eqb x y Q D. cbn. destruct (eqb x y) eqn:K; [apply Q in K; contradiction|reflexivity]. }
  split; [|split; [|split]]; intros a b A B D.
  - refine (MergeKeep.conflict_reported _ String.eqb sPattern "pattern" String.eqb_eq _ _ E fuel nodes s m s' P H n1 n2 a b I1 I2 A B D).
    + intros rec x y t x' t' K. apply (MergeKeep.into_keys _ _ _ _ _ _ K).
    + intros x y c d C1 C2 C3. unfold simpleWarnings. rewrite C1, C2, (W _ String.eqb c d String.eqb_eq C3). apply in_or_app. right. left. reflexivity.
  - refine (MergeKeep.conflict_reported _ String.eqb sFormat "format" String.eqb_eq _ _ E fuel nodes s m s' P H n1 n2 a b I1 I2 A B D).
    + intros rec x y t x' t' K. apply (MergeKeep.into_keys _ _ _ _ _ _ K).
    + intros x y c d C1 C2 C3. unfold simpleWarnings. rewrite C1, C2, (W _ String.eqb c d String.eqb_eq C3). do 2 (apply in_or_app; right). left. reflexivity.
  - refine (MergeKeep.conflict_reported _ Z.eqb sLength "length" Z.eqb_eq _ _ E fuel nodes s m s' P H n1 n2 a b I1 I2 A B D).
    + intros rec x y t x' t' K. apply (MergeKeep.into_keys _ _ _ _ _ _ K).
    + intros x y c d C1 C2 C3. unfold simpleWarnings. rewrite C1, C2, (W _ Z.eqb d c Z.eqb_eq (not_eq_sym C3)). left. reflexivity.
  - refine (MergeKeep.conflict_reported _ Bool.eqb sUniqueItems "uniqueItems" Bool.eqb_true_iff _ _ E fuel nodes s m s' P H n1 n2 a b I1 I2 A B D).
    + intros rec x y t x' t' K. apply (MergeKeep.into_keys _ _ _ _ _ _ K).
    + intros x y c d C1 C2 C3. unfold simpleWarnings. rewrite C1, C2, (W _ Bool.eqb c d Bool.eqb_true_iff C3). do 3 (apply in_or_app; right). left. reflexivity.
Qed.
Print Assumptions C32_conflicts_reported.

Example C32_case_conflict : let nodes := [set_sPattern (Some "a") emptyNode; emptyNode; set_sPattern (Some "b") emptyNode] in
  (forall n, In n nodes -> sRef n = None /\ sAllOf n = None) /\ okM (merge demoPE 9 nodes demoP) (fun _ _ => true) = true.
Proof. cbv zeta. split; [intros n [<-|[<-|[<-|[]]]]; auto|]. vm_compute. reflexivity. Qed.

(* three branches, each with a condition and a negation *)
Definition branch (k : string) : schemaNode := set_sNot (Some (needs k)) (set_sIf (Some (needs k)) (set_sThen (Some abcd) emptyNode)).
Example C32_case_kept :
  (forall n, In n [branch "a"; branch "b"; branch "c"] -> sRef n = None /\ sAllOf n = None) /\
  match merge demoPE 9 [branch "a"; branch "b"; branch "c"] demoP with
  | Ok (m, s') => match pErrs s', collectNots m, sMergedIf m with [], [_; _; _], [_; _; _] => true | _, _, _ => false end
  | _ => false
  end = true.
Proof. split; [intros n [<-|[<-|[<-|[]]]]; auto|]. vm_compute. reflexivity. Qed.
