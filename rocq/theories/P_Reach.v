(* C60: what is allowed can come out. *)
From Coq Require Import ZArith Reals List String Bool Lia Lra.
From Flocq Require Import Core BinarySingleNaN.
From Verif Require Import Base Float64 Json Schema Util Rand Options Number NumberThm SpecNumber ReachNum Gen GenFacts GenInv GenValues.
From Verif Require Import PState RefPath Merge NotMerge Parse SpecParse MergeProps SpecSchema SpecRun ParseShape ValueProps ConstrProps Reach ValueDemo.
Import ListNotations.
Open Scope string_scope.
Open Scope Z_scope.

(* a schema accepted by the demonstration environment *)
Lemma accepted_by : forall n, okN (parseNode demoPE 40 n demoP) = true -> exists g, accepted demoPE n g.
Proof. intros n H. apply okN_ex in H. destruct H as (g & s' & H & _). exists g, 40%nat, demoP, s'. exact H. Qed.
Ltac accept := apply accepted_by; vm_compute; reflexivity.

(* Every member of an enum that the schema itself allows comes out for some draw. *)
Theorem C60_enum : forall PE n l g fuel s s' v, flat n -> sEnum n = Some l -> parseNode PE fuel n s = Ok (Good g, s') ->
  assoc (scope s ++ normalisePath (pPath s ++ "/enum")) (pRes s) = None -> In v l -> pxValid PE n v = true ->
  exists d, forall GE st, eRand GE (gPos st) = d -> exists st', yields GE g st v st'.
Proof. exact enum_reached. Qed.
Print Assumptions C60_enum.

Example C60_enum_case :
  let n := set_sEnum (Some [JInt 1; JStr "two"; JNull]) emptyNode in
  flat n /\ assoc (scope demoP ++ normalisePath (pPath demoP ++ "/enum")) (pRes demoP) = None /\ In (JStr "two") [JInt 1; JStr "two"; JNull] /\
  pxValid demoPE n (JStr "two") = true /\ (exists g s', parseNode demoPE 40 n demoP = Ok (Good g, s')) /\
  gives (drawing 0 0) n (JInt 1) [] /\ gives (drawing 1 0) n (JStr "two") [] /\ gives (drawing 2 0) n JNull [].
Proof.
  intros n. split; [constructor; reflexivity|]. split; [reflexivity|]. split; [right; left; reflexivity|]. split; [reflexivity|].
  split. { destruct (okN_ex (parseNode demoPE 40 n demoP)) as (g & s' & E & _); [vm_compute; reflexivity|]. exists g, s'. exact E. }
  split; [demo|]. split; demo.
Qed.

(* Both booleans come out of {"type": "boolean"}. *)
Theorem C60_boolean : forall PE n g b, plain n -> ofType "boolean" n -> accepted PE n g ->
  exists d, forall GE st, eRand GE (gPos st) = d -> exists st', yields GE g st (JBool b) st'.
Proof. exact bool_reached. Qed.
Print Assumptions C60_boolean.

Example C60_boolean_case :
  let n := typed "boolean" emptyNode in plain n /\ ofType "boolean" n /\ (exists g, accepted demoPE n g).
Proof. split; [constructor; reflexivity|]. split; [reflexivity|accept]. Qed.

(* Every type of a list of types is drawn: some draw makes the generator produce exactly what the schema
   with that one type produces. *)
Theorem C60_type_list : forall PE n x ts g t, plain n -> sType n = Some (mkMT x (Some ts)) -> ~ In "" ts -> Z.of_nat (List.length ts) < 2 ^ 60 ->
  accepted PE n g -> In t ts ->
  exists d g', childOf PE (withType t n) g' /\ forall GE st v st', eRand GE (gPos st) = d ->
    yields GE g' (mkG (S (gPos st)) (gGlob st) (gCx st) (gStack st) (gLog st)) v st' -> yields GE g st v st'.
Proof. exact type_reached. Qed.
Print Assumptions C60_type_list.

Example C60_type_list_case :
  let n := set_sType (Some (mkMT "" (Some ["null"; "boolean"]))) emptyNode in
  plain n /\ (exists g, accepted demoPE n g) /\ gives (drawing 0 0) n JNull [] /\ gives (drawing 1 0) n (JBool true) [].
Proof. split; [constructor; reflexivity|]. split; [accept|]. split; demo. Qed.

(* Every branch of an anyOf is drawn. *)
Theorem C60_anyOf : forall PE n l g sub, sRef n = None -> sAllOf n = None -> sConstraints n = None -> Z.of_nat (List.length l) < 2 ^ 60 ->
  get_or (sOneOf n) [] = [] -> sAnyOf n = Some l -> accepted PE n g -> In sub l ->
  exists d g', branchOf PE false n sub g' /\ forall GE st, eRand GE (gPos st) = d -> shouldCutoff (eOpts GE) (gCx st + 1) = false ->
    exists st1, after st st1 /\ gLog st1 = gLog st /\ forall v st', yields GE g' st1 v st' -> yields GE g st v st'.
Proof. exact anyOf_reached. Qed.
Print Assumptions C60_anyOf.

Example C60_anyOf_case :
  let n := set_sAnyOf (Some [isConst "p"; isConst "q"]) emptyNode in
  (exists g, accepted demoPE n g) /\ gives (drawing 0 0) n (JStr "p") [] /\ gives (drawing 1 0) n (JStr "q") [].
Proof. split; [accept|]. split; demo. Qed.

(* Between integer bounds of at most 2^46, one on each side, every allowed integer comes out. *)
Theorem C60_integers : forall n z p, keywordsWithin (IZR (2 ^ 46)) 0 n -> integerKeywords n -> sMultipleOf n = None ->
  (sMinimum n <> None \/ sExclusiveMinimum n <> None) -> (sMaximum n <> None \/ sExclusiveMaximum n <> None) ->
  parseNumber n true = Good p -> okBounds n (IZR z) ->
  exists d v, producesNumber n true d v /\ numberValue v (IZR z).
Proof. exact integer_reached. Qed.
Print Assumptions C60_integers.

Example C60_integers_case : exists d v, producesNumber upTo true d v /\ numberValue v (IZR 39).
Proof.
  destruct upTo_meets as (A & B & (p & C) & D).
  refine (C60_integers upTo 39 p A B _ _ _ C D); [exact eq_refl|left|right]; unfold upTo; cbn [sMinimum sExclusiveMaximum set_sMinimum set_sExclusiveMaximum emptyNode]; intros Q; discriminate Q.
Qed.

(* Not so for other bounds: with exclusiveMinimum 2.5 and maximum 10 the integer 3 never comes out. *)
Theorem C60_integers_refuted : exists n, (exists p, parseNumber n true = Good p) /\ sMultipleOf n = None /\
  okBounds n (IZR 3) /\ forall d v, producesNumber n true d v -> ~ numberValue v (IZR 3).
Proof.
  exists aboveHalf. split; [exact aboveHalf_accepted|]. split; [exact eq_refl|]. split; [exact aboveHalf_allowed|].
  intros d v H V. pose proof (aboveHalf_only d v (IZR 3) H V). lra.
Qed.
Print Assumptions C60_integers_refuted.

(* A multiple whose two neighbours are allowed as well comes out; missing: the first and the last
   allowed multiple, see C60_multiples_refuted. *)
Theorem C60_multiples_partial : forall n z p m c, keywordsWithin (IZR (2 ^ 46)) (IZR (2 ^ 40)) n -> integerKeywords n -> sMultipleOf n = Some m -> B2R m = IZR c ->
  (sMinimum n <> None \/ sExclusiveMinimum n <> None) -> (sMaximum n <> None \/ sExclusiveMaximum n <> None) ->
  parseNumber n true = Good p -> okBounds n (IZR (z * c)) -> okBounds n (IZR ((z - 1) * c)) -> okBounds n (IZR ((z + 1) * c)) ->
  exists d, producesNumber n true d (JInt (z * c)).
Proof. exact multiple_reached. Qed.
Print Assumptions C60_multiples_partial.

(* {"type":"integer","minimum":0,"maximum":30,"multipleOf":10} gives 10 and 20, and never 0 or 30. *)
Theorem C60_multiples_refuted : exists n, (forall d, exists v, producesNumber n true d v) /\
  (okBounds n 0 /\ okMultipleOf n 0 /\ okBounds n 30 /\ okMultipleOf n 30)%R /\
  forall d v, producesNumber n true d v -> ~ numberValue v 0 /\ ~ numberValue v 30.
Proof.
  exists tens. split; [exact tens_makes|]. split; [exact tens_allowed|].
  intros d v H. destruct (tens_only d v H) as [-> | ->]; cbn [numberValue]; lra.
Qed.
Print Assumptions C60_multiples_refuted.

(* Every length from minItems up to, but not including, maxItems is drawn by some source: whatever the
   array, it has that many items. Missing: the length maxItems itself, see C60_lengths_refuted. *)
Theorem C60_lengths_partial : forall PE n a b g k, plain n -> ofType "array" n -> sMinItems n = Some a -> sMaxItems n = Some b -> 0 < a -> b < 2 ^ 60 ->
  tupleNodes n = [] -> get_or (sPrefixItems n) [] = [] -> sContains n = None -> get_or (sMinContains n) 0 = 0 -> itemsFalse n = false -> addlItemsFalse n = false -> unevalFalse n = false ->
  get_or (sUniqueItems n) false = false -> accepted PE n g -> a <= k < b ->
  exists d, forall GE st v st', eRand GE (gPos st) = d -> shouldCutoff (eOpts GE) (gCx st + 1) = false -> shouldMinimize (eOpts GE) (gCx st + 1) = false ->
    yields GE g st v st' -> exists l, v = JArr l /\ Z.of_nat (List.length l) = k.
Proof. exact length_reached. Qed.
Print Assumptions C60_lengths_partial.

(* No array is as long as maxItems allows, when minItems is positive and smaller. *)
Theorem C60_lengths_refuted : forall PE GE n a b g st l st', plain n -> ofType "array" n -> sMinItems n = Some a -> sMaxItems n = Some b -> 0 < a < b -> b < 2 ^ 60 ->
  tupleNodes n = [] -> get_or (sPrefixItems n) [] = [] -> sContains n = None -> get_or (sMinContains n) 0 = 0 -> itemsFalse n = false -> addlItemsFalse n = false -> unevalFalse n = false ->
  accepted PE n g -> yields GE g st (JArr l) st' -> Z.of_nat (List.length l) < b.
Proof. exact longest_missed. Qed.
Print Assumptions C60_lengths_refuted.

Definition twoToFour : schemaNode := set_sMinItems (Some 2) (set_sMaxItems (Some 4) (set_sItems (itemsAre (isConst "x")) (arrayOf emptyNode))).
Example C60_lengths_case : plain twoToFour /\ ofType "array" twoToFour /\ tupleNodes twoToFour = [] /\ itemsFalse twoToFour = false /\
  addlItemsFalse twoToFour = false /\ unevalFalse twoToFour = false /\ (exists g, accepted demoPE twoToFour g) /\
  gives (drawing 0 0) twoToFour (JArr [JStr "x"; JStr "x"]) [] /\ gives (drawing 3 0) twoToFour (JArr [JStr "x"; JStr "x"; JStr "x"]) [].
Proof.
  split; [constructor; reflexivity|]. split; [reflexivity|]. split; [reflexivity|]. split; [reflexivity|].
  split; [reflexivity|]. split; [reflexivity|]. split; [accept|]. split; demo.
Qed.

(* Every choice of optional properties, in any order, that stays within minProperties and below
   maxProperties is drawn by some source. Missing: choices of maxProperties properties, see
   C60_subsets_refuted, and objects with required or pattern properties. *)
Theorem C60_subsets_partial : forall PE n o mn mx g chosen, plain n -> ofType "object" n -> get_or (sRequired n) [] = [] -> get_or (sPatternProperties n) [] = [] -> addlFalse n = true ->
  mn = getInt (get_or (sMinProperties n) 0) (oDefaultObjectMinProperties o) -> sMaxProperties n = Some mx -> 0 <= mn -> 0 < mx < 2 ^ 60 ->
  accepted PE n g -> NoDup chosen -> incl chosen (keys (get_or (sProperties n) [])) ->
  mn <= Z.of_nat (List.length chosen) < mx ->
  exists d draws, forall GE st v st', eOpts GE = o -> eRand GE (gPos st) = d -> (forall i, eGlob GE (gGlob st + i) = draws i) ->
    shouldCutoff o (gCx st + 1) = false -> shouldMinimize o (gCx st + 1) = false ->
    yields GE g st v st' -> exists m, v = JObj m /\ keys m = chosen.
Proof. exact subset_reached. Qed.
Print Assumptions C60_subsets_partial.

(* No object of optional properties has as many members as maxProperties allows, when minProperties is smaller. *)
Theorem C60_subsets_refuted : forall PE GE n mx g st m st', plain n -> ofType "object" n -> get_or (sRequired n) [] = [] -> get_or (sPatternProperties n) [] = [] -> addlFalse n = true ->
  sMaxProperties n = Some mx -> 0 <= getInt (get_or (sMinProperties n) 0) (oDefaultObjectMinProperties (eOpts GE)) < mx -> mx < 2 ^ 60 ->
  accepted PE n g -> yields GE g st (JObj m) st' -> Z.of_nat (List.length m) < mx.
Proof. exact fullest_missed. Qed.
Print Assumptions C60_subsets_refuted.

Definition upToThree : schemaNode :=
  set_sMinProperties (Some 1) (set_sMaxProperties (Some 3) (set_sProperties abc (set_sAdditionalProperties noMore (objectOf emptyNode)))).
Example C60_subsets_case : plain upToThree /\ ofType "object" upToThree /\ addlFalse upToThree = true /\ (exists g, accepted demoPE upToThree g) /\
  (exists m, gives (drawing 0 0) upToThree (JObj m) [] /\ List.length m = 1%nat) /\ (exists m, gives (drawing 1 0) upToThree (JObj m) [] /\ List.length m = 2%nat).
Proof.
  split; [constructor; reflexivity|]. split; [reflexivity|]. split; [reflexivity|]. split; [accept|].
  split.
  - eexists. split; [demo|reflexivity].
  - eexists. split; [demo|reflexivity].
Qed.
