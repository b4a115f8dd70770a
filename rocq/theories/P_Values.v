(* Properties C08, C11-C19: what is generated for a schema node the parser accepted.  The vocabulary
   (accepted, yields, plain, fromSchema, ...) is SpecRun.v; PE holds what the parser asks of the outside
   world, GE the options, the random sources and the external libraries of generation. *)
From Coq Require Import ZArith List String Bool.
From Verif Require Import Base Float64 Json Schema Util Options Number Gen GenInv GenValues PState RefPath Merge NotMerge Parse.
From Verif Require Import SpecSchema SpecRun MergeProps ValueProps ValueTypes ValueDemo.
Import ListNotations.
Open Scope string_scope.
Open Scope Z_scope.

(* ---- C08 strings ---- *)
(* Missing from the full statement: maxLength 0, see C08_maxLength_zero_refuted. *)
Theorem C08_length_partial : forall PE GE n g st str st', plain n -> smallSizes n -> smallOptions (eOpts GE) ->
  sPattern n = None -> sFormat n = None -> sMaxLength n <> Some 0 ->
  accepted PE n g -> yields GE g st (JStr str) st' ->
  okRange (sMinLength n) (sMaxLength n) (Z.of_nat (String.length str)) /\
  ((forall d, isAscii (eSentence GE d)) -> okRange (sMinLength n) (sMaxLength n) (chars str)).
Proof. exact any_string. Qed.
Print Assumptions C08_length_partial.

(* a node of type string always yields a string *)
Theorem C08_string_partial : forall PE GE n g st v st', plain n -> ofType "string" n -> sPattern n = None -> sFormat n = None ->
  sMaxLength n <> Some 0 -> accepted PE n g -> yields GE g st v st' ->
  exists str, v = JStr str /\ okRange (sMinLength n) (sMaxLength n) (Z.of_nat (String.length str)) /\
    ((forall d, isAscii (eSentence GE d)) -> okRange (sMinLength n) (sMaxLength n) (chars str)).
Proof. exact string_lengths. Qed.
Print Assumptions C08_string_partial.

(* the loop that lengthens the string ends, if sentences are not empty *)
Theorem C08_terminates : forall PE GE n g st, plain n -> ofType "string" n -> sPattern n = None -> sFormat n = None ->
  accepted PE n g -> (forall d, eSentence GE d <> "") -> exists v st', yields GE g st v st'.
Proof. exact string_generates. Qed.
Print Assumptions C08_terminates.

(* {"type":"string","maxLength":0} yields "ab" *)
Theorem C08_maxLength_zero_refuted : exists GE n str, plain n /\ smallSizes n /\ smallOptions (eOpts GE) /\
  sPattern n = None /\ sFormat n = None /\ gives GE n (JStr str) [] /\
  ~ okRange (sMinLength n) (sMaxLength n) (Z.of_nat (String.length str)).
Proof.
  exists (drawing 3 0), (typed "string" (set_sMaxLength (Some 0) emptyNode)), "ab".
  split; [constructor; reflexivity|]. split; [apply small_by; reflexivity|]. split; [apply drawing_small|].
  split; [reflexivity|]. split; [reflexivity|]. split; [demo|]. intros [_ H]. specialize (H _ eq_refl). apply H. reflexivity.
Qed.
Print Assumptions C08_maxLength_zero_refuted.

Example C08_case : let n := typed "string" (set_sMinLength (Some 5) (set_sMaxLength (Some 7) emptyNode)) in
  plain n /\ smallSizes n /\ smallOptions (eOpts (drawing 3 0)) /\ sPattern n = None /\ sFormat n = None /\ sMaxLength n <> Some 0 /\
  (forall d, isAscii (eSentence (drawing 3 0) d)) /\ (forall d, eSentence (drawing 3 0) d <> "") /\
  gives (drawing 3 0) n (JStr "ababab") [].
Proof.
  cbv zeta. split; [constructor; reflexivity|]. split; [apply small_by; reflexivity|]. split; [apply drawing_small|].
  split; [reflexivity|]. split; [reflexivity|]. split; [discriminate|].
  split; [intros d c [<-|[<-|[]]]; cbv; repeat constructor|]. split; [discriminate|]. demo.
Qed.

(* ---- C11 sizes of arrays ---- *)
(* Missing from the full statement: the cases refuted below. *)
Theorem C11_size_partial : forall PE GE n g st l st', plain n -> smallSizes n -> smallOptions (eOpts GE) ->
  sMaxItems n <> Some 0 ->
  (forall d, sItems n = Some d -> get_or (itNodes d) [] = []) ->
  addlItemsFalse n = false ->
  (itemsFalse n = true -> get_or (sMinItems n) 0 <= prefixLength n) ->
  (forall m, sMaxItems n = Some m -> oDefaultArrayMinItems (eOpts GE) <= m) ->
  accepted PE n g -> yields GE g st (JArr l) st' -> okRange (sMinItems n) (sMaxItems n) (Z.of_nat (List.length l)).
Proof. exact any_array_size. Qed.
Print Assumptions C11_size_partial.

(* an array node yields an array, or null past the cutoff *)
Theorem C11_array_partial : forall PE GE n g st v st', plain n -> ofType "array" n -> smallSizes n -> smallOptions (eOpts GE) ->
  sMaxItems n <> Some 0 ->
  (forall d, sItems n = Some d -> get_or (itNodes d) [] = []) ->
  addlItemsFalse n = false ->
  (itemsFalse n = true -> get_or (sMinItems n) 0 <= prefixLength n) ->
  (forall m, sMaxItems n = Some m -> oDefaultArrayMinItems (eOpts GE) <= m) ->
  accepted PE n g -> yields GE g st v st' ->
  cutShort GE st v \/ exists l, v = JArr l /\ okRange (sMinItems n) (sMaxItems n) (Z.of_nat (List.length l)).
Proof. exact array_sizes. Qed.
Print Assumptions C11_array_partial.

(* {"type":"array","maxItems":0} yields three items;
   {"type":"array","items":[{"const":"a"},{"const":"b"}],"maxItems":1} yields two;
   {"type":"array","prefixItems":[{"const":"a"}],"items":false,"minItems":2} yields one *)
Theorem C11_size_refuted : Forall (fun '(n, l) =>
    plain n /\ smallSizes n /\ gives (drawing 3 0) n (JArr l) [] /\ ~ okRange (sMinItems n) (sMaxItems n) (Z.of_nat (List.length l)))
  [(arrayOf (set_sMaxItems (Some 0) emptyNode), [JNull; JNull; JNull]);
   (arrayOf (set_sMaxItems (Some 1) (set_sItems (itemsList [isConst "a"; isConst "b"]) emptyNode)), [JStr "a"; JStr "b"]);
   (arrayOf (set_sMinItems (Some 2) (set_sPrefixItems (Some [isConst "a"]) (set_sItems noItems emptyNode))), [JStr "a"])].
Proof.
  apply Forall_cons; [|apply Forall_cons; [|apply Forall_cons; [|apply Forall_nil]]]; cbv beta iota; (split; [constructor; reflexivity|]); (split; [apply small_by; reflexivity|]);
    (split; [demo|]); intros [H1 H2]; first [specialize (H1 _ eq_refl); apply H1; reflexivity | specialize (H2 _ eq_refl); apply H2; reflexivity].
Qed.
Print Assumptions C11_size_refuted.

Example C11_case : let n := arrayOf (set_sMinItems (Some 2) (set_sMaxItems (Some 4)
                             (set_sPrefixItems (Some [isConst "a"]) (set_sItems (itemsAre (isConst "i")) emptyNode)))) in
  plain n /\ smallSizes n /\ smallOptions (eOpts (drawing 2 0)) /\ sMaxItems n <> Some 0 /\
  (forall d, sItems n = Some d -> get_or (itNodes d) [] = []) /\ addlItemsFalse n = false /\
  (forall m, sMaxItems n = Some m -> oDefaultArrayMinItems (eOpts (drawing 2 0)) <= m) /\
  gives (drawing 2 0) n (JArr [JStr "a"; JStr "i"; JStr "i"]) [].
Proof.
  cbv zeta. split; [constructor; reflexivity|]. split; [apply small_by; reflexivity|]. split; [apply drawing_small|].
  split; [discriminate|]. split; [intros d E; injection E as <-; reflexivity|]. split; [reflexivity|].
  split; [intros m E; injection E as <-; vm_compute; discriminate|]. demo.
Qed.

(* ---- C12 positions ---- *)
(* tv: the positional schemas in order; cv: from contains; rv: the others.  Missing from the full
   statement: contains is ignored under items:false, see below. *)
Theorem C12_positions_partial : forall PE GE n g st l st', plain n -> smallSizes n -> smallOptions (eOpts GE) ->
  accepted PE n g -> yields GE g st (JArr l) st' ->
  exists tv cv rv, l = (tv ++ cv ++ rv)%list /\
    Forall2 (fun c x => fromSchema PE GE c x st st') (positional n) tv /\
    match sContains n with
    | None => cv = []
    | Some c => exists c', containsFrom PE c n c' /\
        (itemsFalse n = false -> Z.of_nat (List.length cv) = minContainsOf n) /\
        (forall x, In x cv -> fromSchema PE GE c' x st st' \/
           (sUniqueItems n = Some true /\ x = JStr (uniqueWarning GE) /\ emitted EvUniqueFail st st'))
    end /\
    (forall x, In x rv ->
       match itemsNode n, addlItemsNode n, unevalNode n with
       | Some c, _, _ => fromSchema PE GE c x st st'
       | None, Some c, _ => fromSchema PE GE c x st st'
       | None, None, Some c => fromSchema PE GE c x st st'
       | None, None, None => if get_or (sUniqueItems n) false then exists s, x = JStr s else x = JNull
       end \/ (sUniqueItems n = Some true /\ x = JStr (uniqueWarning GE) /\ emitted EvUniqueFail st st')) /\
    (itemsFalse n = true -> cv = [] /\ rv = []).
Proof. exact any_array_elements. Qed.
Print Assumptions C12_positions_partial.

(* {"type":"array","prefixItems":[{"const":"a"}],"items":false,"contains":{"const":"c"}} yields ["a"] *)
Theorem C12_contains_refuted : exists n, plain n /\ smallSizes n /\ sContains n = Some (isConst "c") /\
  gives (drawing 3 0) n (JArr [JStr "a"]) [].
Proof.
  exists (arrayOf (set_sContains (Some (isConst "c")) (set_sPrefixItems (Some [isConst "a"]) (set_sItems noItems emptyNode)))).
  split; [constructor; reflexivity|]. split; [apply small_by; reflexivity|]. split; [reflexivity|]. demo.
Qed.
Print Assumptions C12_contains_refuted.

(* {"type":"array","prefixItems":[{"const":"c"}],"contains":{"const":"c"},"maxContains":1} yields ["c", "c"] *)
Theorem C12_maxContains_refuted : exists n, plain n /\ smallSizes n /\ sContains n = Some (isConst "c") /\ sMaxContains n = Some 1 /\
  gives (drawing 0 0) n (JArr [JStr "c"; JStr "c"]) [].
Proof.
  exists (arrayOf (set_sContains (Some (isConst "c")) (set_sMaxContains (Some 1) (set_sPrefixItems (Some [isConst "c"]) emptyNode)))).
  split; [constructor; reflexivity|]. split; [apply small_by; reflexivity|]. split; [reflexivity|]. split; [reflexivity|]. demo.
Qed.
Print Assumptions C12_maxContains_refuted.

(* {"type":"array","items":[{"const":"a"},{"const":"b"}],"additionalItems":false} yields ["a", "b", null] *)
Theorem C12_additionalItems_refuted : exists n, plain n /\ smallSizes n /\ sAdditionalItems n = Some (mkNOF None true) /\
  sItems n = Some (mkItems None (Some [isConst "a"; isConst "b"]) false) /\
  gives (drawing 1 0) n (JArr [JStr "a"; JStr "b"; JNull]) [].
Proof.
  exists (arrayOf (set_sItems (Some (mkItems None (Some [isConst "a"; isConst "b"]) false)) (set_sAdditionalItems (Some (mkNOF None true)) emptyNode))).
  split; [constructor; reflexivity|]. split; [apply small_by; reflexivity|]. split; [reflexivity|]. split; [reflexivity|]. demo.
Qed.
Print Assumptions C12_additionalItems_refuted.

Example C12_case : let n := arrayOf (set_sMinItems (Some 4) (set_sMaxItems (Some 4) (set_sContains (Some (isConst "c"))
                             (set_sPrefixItems (Some [isConst "a"]) (set_sAdditionalItems (moreAre (isConst "m")) emptyNode))))) in
  plain n /\ smallSizes n /\ smallOptions (eOpts (drawing 2 0)) /\
  gives (drawing 2 0) n (JArr [JStr "a"; JStr "c"; JStr "m"; JStr "m"]) [].
Proof.
  cbv zeta. split; [constructor; reflexivity|]. split; [apply small_by; reflexivity|]. split; [apply drawing_small|]. demo.
Qed.

(* ---- C13 unique items ---- *)
(* Elements are compared by their JSON encoding.  Missing from the full statement: positional
   elements are not compared, see below. *)
Theorem C13_unique_partial : forall PE GE n g st l st', plain n -> smallSizes n -> smallOptions (eOpts GE) ->
  sUniqueItems n = Some true -> positional n = [] ->
  accepted PE n g -> yields GE g st (JArr l) st' -> emitted EvUniqueFail st st' \/ textsDiffer l.
Proof. exact any_array_differ. Qed.
Print Assumptions C13_unique_partial.

(* {"type":"array","uniqueItems":true,"maxItems":2,"prefixItems":[{"const":"a"},{"const":"a"}]} *)
Theorem C13_tuple_refuted : exists n, plain n /\ smallSizes n /\ sUniqueItems n = Some true /\
  gives (drawing 3 0) n (JArr [JStr "a"; JStr "a"]) [].
Proof.
  exists (arrayOf (set_sUniqueItems (Some true) (set_sMaxItems (Some 2) (set_sPrefixItems (Some [isConst "a"; isConst "a"]) emptyNode)))).
  split; [constructor; reflexivity|]. split; [apply small_by; reflexivity|]. split; [reflexivity|]. demo.
Qed.
Print Assumptions C13_tuple_refuted.

(* one value is found, then the marker is used *)
Example C13_case : let n := arrayOf (set_sUniqueItems (Some true) (set_sMinItems (Some 2)
                             (set_sItems (itemsAre (set_sEnum (Some [JStr "x"; JStr "y"]) emptyNode)) emptyNode))) in
  plain n /\ smallSizes n /\ smallOptions (eOpts (drawing 0 0)) /\ sUniqueItems n = Some true /\ positional n = [] /\
  gives (drawing 0 0) n (JArr [JStr "x"; JStr (uniqueWarning (drawing 0 0))]) [EvUniqueFail].
Proof.
  cbv zeta. split; [constructor; reflexivity|]. split; [apply small_by; reflexivity|]. split; [apply drawing_small|].
  split; [reflexivity|]. split; [reflexivity|]. demo.
Qed.

(* ---- C14 required ---- *)
(* Missing from the full statement: nodes with $ref, combinations, conditions or negations. *)
Theorem C14_required_partial : forall PE GE n g st m st', plain n -> smallSizes n -> smallOptions (eOpts GE) ->
  accepted PE n g -> yields GE g st (JObj m) st' -> forall k, In k (get_or (sRequired n) []) -> In k (keys m).
Proof. exact any_required. Qed.
Print Assumptions C14_required_partial.

Theorem C14_object_partial : forall PE GE n g st v st', plain n -> ofType "object" n -> smallSizes n -> smallOptions (eOpts GE) ->
  accepted PE n g -> yields GE g st v st' ->
  cutShort GE st v \/ exists m, v = JObj m /\ forall k, In k (get_or (sRequired n) []) -> In k (keys m).
Proof. exact object_required. Qed.
Print Assumptions C14_object_partial.

Example C14_case : let n := objectOf (set_sProperties abc (set_sRequired (Some ["b"; "z"]) emptyNode)) in
  plain n /\ smallSizes n /\ smallOptions (eOpts (drawing 1 1)) /\
  gives (drawing 1 1) n (JObj [("b", JStr "2"); ("z", JStr "required_z_1")]) [].
Proof.
  cbv zeta. split; [constructor; reflexivity|]. split; [apply small_by; reflexivity|]. split; [apply drawing_small|]. demo.
Qed.

(* ---- C15 number of properties ---- *)
(* Missing from the full statement: the cases refuted below, and declared or generated names that look
   like the names used to fill up. *)
Theorem C15_max_partial : forall PE GE n g st m st', plain n -> smallSizes n -> smallOptions (eOpts GE) ->
  sMaxProperties n <> Some 0 -> (forall k, sMaxProperties n = Some k -> oDefaultObjectMinProperties (eOpts GE) <= k) ->
  accepted PE n g -> yields GE g st (JObj m) st' -> NoDup (keys m) /\ okRange None (sMaxProperties n) (Z.of_nat (List.length m)).
Proof. exact any_max. Qed.
Print Assumptions C15_max_partial.

Theorem C15_min_partial : forall PE GE n g st m st', plain n -> smallSizes n -> smallOptions (eOpts GE) ->
  addlFalse n = false ->
  (forall k, In k (get_or (sRequired n) []) \/ In k (keys (get_or (sProperties n) [])) ->
     ~ exists i, 0 <= i /\ k = "min_filler_" ++ itoa i) ->
  (forall re c e k, In (re, c) (get_or (sPatternProperties n) []) -> eRegen GE re e = Ok k ->
     ~ exists i, 0 <= i /\ k = "min_filler_" ++ itoa i) ->
  accepted PE n g -> yields GE g st (JObj m) st' -> NoDup (keys m) /\ okRange (sMinProperties n) None (Z.of_nat (List.length m)).
Proof. exact any_min. Qed.
Print Assumptions C15_min_partial.

(* {"type":"object","properties":{"a":..,"b":..,"c":..},"maxProperties":0} yields two properties;
   {"type":"object","properties":{"a":..,"b":..,"c":..},"required":["a"],"additionalProperties":false,
    "minProperties":2} yields one *)
Theorem C15_count_refuted : Forall (fun '((r, g), (n, m)) =>
    plain n /\ smallSizes n /\ gives (drawing r g) n (JObj m) [] /\ ~ okRange (sMinProperties n) (sMaxProperties n) (Z.of_nat (List.length m)))
  [((2, 0), (objectOf (set_sProperties abc (set_sMaxProperties (Some 0) emptyNode)), [("c", JStr "3"); ("a", JStr "1")]));
   ((0, 1), (objectOf (set_sProperties abc (set_sRequired (Some ["a"]) (set_sAdditionalProperties noMore (set_sMinProperties (Some 2) emptyNode)))),
             [("a", JStr "1")]))].
Proof.
  apply Forall_cons; [|apply Forall_cons; [|apply Forall_nil]]; cbv beta iota; (split; [constructor; reflexivity|]); (split; [apply small_by; reflexivity|]);
    (split; [demo|]); intros [H1 H2]; first [specialize (H1 _ eq_refl); apply H1; reflexivity | specialize (H2 _ eq_refl); apply H2; reflexivity].
Qed.
Print Assumptions C15_count_refuted.

Example C15_case : let n := objectOf (set_sProperties abc (set_sMinProperties (Some 4) (set_sMaxProperties (Some 5) emptyNode))) in
  plain n /\ smallSizes n /\ smallOptions (eOpts (drawing 1 1)) /\ addlFalse n = false /\
  gives (drawing 1 1) n (JObj [("a", JStr "1"); ("c", JStr "3"); ("b", JStr "2"); ("min_filler_3", JNull)]) [].
Proof.
  cbv zeta. split; [constructor; reflexivity|]. split; [apply small_by; reflexivity|]. split; [apply drawing_small|].
  split; [reflexivity|]. demo.
Qed.

(* ---- C16 no undeclared names ---- *)
(* Missing from the full statement: with patternProperties the minimum is still filled up, see below,
   and a pattern the generator does not take gives the empty name. *)
Theorem C16_names_partial : forall PE GE n g st m st', plain n -> smallSizes n -> smallOptions (eOpts GE) ->
  addlFalse n = true -> accepted PE n g -> yields GE g st (JObj m) st' -> forall k, In k (keys m) ->
    In k (keys (get_or (sProperties n) [])) \/ In k (get_or (sRequired n) []) \/
    exists re c, In (re, c) (get_or (sPatternProperties n) []) /\
      ((exists e, eRegen GE re e = Ok k) \/ (pxPropRegexOk PE re = false /\ k = "") \/ (exists i, 0 <= i /\ k = "min_filler_" ++ itoa i)).
Proof. exact any_keys. Qed.
Print Assumptions C16_names_partial.

(* {"type":"object","patternProperties":{"^x$":{"const":"1"}},"additionalProperties":false,"minProperties":2} *)
Theorem C16_filler_refuted : exists n, plain n /\ smallSizes n /\ addlFalse n = true /\
  gives (drawing 0 0) n (JObj [("r", JStr "1"); ("min_filler_1", JNull)]) [].
Proof.
  exists (objectOf (set_sPatternProperties (Some [("^x$", isConst "1")]) (set_sAdditionalProperties noMore (set_sMinProperties (Some 2) emptyNode)))).
  split; [constructor; reflexivity|]. split; [apply small_by; reflexivity|]. split; [reflexivity|]. demo.
Qed.
Print Assumptions C16_filler_refuted.

Example C16_case : let n := objectOf (set_sProperties abc (set_sAdditionalProperties noMore emptyNode)) in
  plain n /\ smallSizes n /\ smallOptions (eOpts (drawing 2 0)) /\ addlFalse n = true /\
  gives (drawing 2 0) n (JObj [("c", JStr "3"); ("a", JStr "1")]) [].
Proof.
  cbv zeta. split; [constructor; reflexivity|]. split; [apply small_by; reflexivity|]. split; [apply drawing_small|].
  split; [reflexivity|]. demo.
Qed.

(* ---- C17 values of declared properties ---- *)
(* Missing from the full statement: declared names the generator also invents or a pattern also
   generates (see below); a sub-schema that was refused gives null (fromChild). *)
Theorem C17_values_partial : forall PE GE n g st m st', plain n -> smallSizes n -> smallOptions (eOpts GE) ->
  accepted PE n g -> yields GE g st (JObj m) st' -> forall k x c, assoc k m = Some x -> assoc k (get_or (sProperties n) []) = Some c ->
    (forall i, 0 <= i -> k <> "additional_" ++ itoa i /\ k <> "fallback_" ++ itoa i /\ k <> "min_filler_" ++ itoa i) ->
    (forall re p, In (re, p) (get_or (sPatternProperties n) []) -> (pxPropRegexOk PE re = true \/ k <> "") /\ forall e, eRegen GE re e <> Ok k) ->
    fromChild PE GE c x st st'.
Proof. exact any_values. Qed.
Print Assumptions C17_values_partial.

(* {"type":"object","properties":{"additional_0":{"const":"1"}},"additionalProperties":{"const":"2"},"minProperties":2} *)
Theorem C17_overwritten_refuted : exists n, plain n /\ smallSizes n /\
  assoc "additional_0" (get_or (sProperties n) []) = Some (isConst "1") /\
  gives (drawing 0 2) n (JObj [("additional_0", JStr "2"); ("min_filler_1", JStr "2")]) [].
Proof.
  exists (objectOf (set_sProperties (Some [("additional_0", isConst "1")]) (set_sAdditionalProperties (moreAre (isConst "2")) (set_sMinProperties (Some 2) emptyNode)))).
  split; [constructor; reflexivity|]. split; [apply small_by; reflexivity|]. split; [reflexivity|]. demo.
Qed.
Print Assumptions C17_overwritten_refuted.

Example C17_case : let n := objectOf (set_sProperties abc (set_sAdditionalProperties (moreAre (isConst "m")) (set_sMinProperties (Some 4) emptyNode))) in
  plain n /\ smallSizes n /\ smallOptions (eOpts (drawing 1 1)) /\
  gives (drawing 1 1) n (JObj [("a", JStr "1"); ("c", JStr "3"); ("b", JStr "2"); ("additional_0", JStr "m"); ("additional_1", JStr "m")]) [].
Proof.
  cbv zeta. split; [constructor; reflexivity|]. split; [apply small_by; reflexivity|]. split; [apply drawing_small|]. demo.
Qed.

(* ---- C18 enum and const ---- *)
(* Only listed values are generated.  They validate against the node, unless another schema was already
   compiled under the same name; then that schema is the one consulted.  That part of the statement
   cannot be had, see C18_collision_refuted. *)
Theorem C18_enum_partial : forall PE GE n x l g fuel s s' st v st', flat n -> sEnum n = Some (x :: l) ->
  parseNode PE fuel n s = Ok (Good g, s') -> yields GE g st v st' ->
  In v (x :: l) /\
  (assoc (scope s ++ normalisePath (pPath s ++ "/enum")) (pRes s) = None -> pxValid PE n v = true).
Proof. exact enum_values. Qed.
Print Assumptions C18_enum_partial.

Theorem C18_const_partial : forall PE GE n x g fuel s s' st v st', flat n -> (sEnum n = None \/ sEnum n = Some []) -> sConst n = Some x ->
  parseNode PE fuel n s = Ok (Good g, s') -> yields GE g st v st' ->
  v = x /\ (assoc (scope s ++ normalisePath (pPath s ++ "/const")) (pRes s) = None -> pxValid PE n v = true).
Proof. exact const_values. Qed.
Print Assumptions C18_const_partial.

(* {"type":"object","required":["a-b","a_b"],"properties":{"a-b":{"enum":[true]},"a_b":{"type":"string","enum":[true,"x"]}}}
   where the only thing the validator checks is "type":"string"; the value of a_b is not a string *)
Theorem C18_collision_refuted : exists n c,
  assoc "a_b" (get_or (sProperties n) []) = Some c /\ flat c /\ pxValid stringPE c (JBool true) = false /\
  givesFrom stringPE start (drawing 0 0) n (JObj [("a-b", JBool true); ("a_b", JBool true)]) [].
Proof.
  exists (objectOf (set_sRequired (Some ["a-b"; "a_b"]) (set_sProperties (Some
     [("a-b", set_sEnum (Some [JBool true]) emptyNode);
      ("a_b", typed "string" (set_sEnum (Some [JBool true; JStr "x"]) emptyNode))]) emptyNode))).
  eexists. split; [reflexivity|]. split; [constructor; reflexivity|]. split; [reflexivity|].
  apply (gives_run stringPE demoP start 40 60). vm_compute. reflexivity.
Qed.
Print Assumptions C18_collision_refuted.

Example C18_case : let n := typed "string" (set_sEnum (Some [JStr "x"; JBool true; JStr "y"]) emptyNode) in
  flat n /\ gives (drawing 2 0) n (JStr "y") [] /\
  assoc (scope demoP ++ normalisePath (pPath demoP ++ "/enum")) (pRes demoP) = None.
Proof. cbv zeta. split; [constructor; reflexivity|]. split; [demo|reflexivity]. Qed.

(* ---- C19 types ---- *)
(* Missing from the full statement: a listed type whose node is refused stands for null (fromChild),
   see below; the name "" in the list is taken for no type at all. *)
Theorem C19_type_list_partial : forall PE GE n x ts g st v st', plain n -> sType n = Some (mkMT x (Some ts)) -> ~ In "" ts ->
  accepted PE n g -> yields GE g st v st' ->
  exists t, In t ts /\ fromChild PE GE (withType t n) v st st'.
Proof. exact type_list. Qed.
Print Assumptions C19_type_list_partial.

(* without a type: the type the keywords belong to, in this order *)
Theorem C19_inferred : forall PE n g t, plain n -> sType n = None ->
  t = (if is_some (sProperties n) || is_some (sPatternProperties n) || is_some (sMinProperties n) || is_some (sMaxProperties n) ||
          is_some (sRequired n) || match sAdditionalProperties n with Some d => is_some (nofSchema d) | None => false end then "object"
       else if is_some (sPattern n) || is_some (sFormat n) || is_some (sMinLength n) || is_some (sMaxLength n) then "string"
       else if is_some (sMinimum n) || is_some (sMaximum n) || is_some (sExclusiveMinimum n) || is_some (sExclusiveMaximum n) ||
               is_some (sMultipleOf n) then "number"
       else if match sItems n with Some d => is_some (itNode d) | None => false end || is_some (sMinItems n) || is_some (sMaxItems n) ||
               is_some (sContains n) || is_some (sMinContains n) || is_some (sMaxContains n) || is_some (sPrefixItems n) ||
               is_some (sAdditionalItems n) || is_some (sUnevaluatedItems n) then "array"
       else "unknown") -> t <> "unknown" ->
  accepted PE n g -> accepted PE (withType t n) g.
Proof. intros PE n g t P T E. exact (type_inferred PE n g t P T (eq_sym E)). Qed.
Print Assumptions C19_inferred.

Theorem C19_unknown : forall PE GE n g st v st', plain n -> sType n = None -> inferType n = "unknown" ->
  accepted PE n g -> yields GE g st v st' ->
  exists t, In t ["object"; "array"; "number"; "integer"; "string"; "boolean"; "null"] /\ fromChild PE GE (withType t n) v st st'.
Proof. exact type_unknown. Qed.
Print Assumptions C19_unknown.

(* a node of type t yields a value of that type, or null *)
Theorem C19_kind : forall PE GE n t g st v st', plain n -> ofType t n -> t <> "" -> smallSizes n -> smallOptions (eOpts GE) ->
  accepted PE n g -> yields GE g st v st' ->
  v = JNull \/ jkind v = t \/ (jkind v = "number" /\ t = "integer").
Proof. exact typed_kind. Qed.
Print Assumptions C19_kind.

(* {"type":["string"],"minLength":-1} is accepted and yields null *)
Theorem C19_refused_type_refuted : exists n, plain n /\ sType n = Some (mkMT "" (Some ["string"])) /\
  rejected demoPE (withType "string" n) /\ gives (drawing 0 0) n JNull [].
Proof.
  exists (set_sType (Some (mkMT "" (Some ["string"]))) (set_sMinLength (Some (-1)) emptyNode)).
  split; [constructor; reflexivity|]. split; [reflexivity|]. split; [|demo].
  exists 40%nat, demoP. eexists. eexists. vm_compute. reflexivity.
Qed.
Print Assumptions C19_refused_type_refuted.

Example C19_case : let n := set_sType (Some (mkMT "" (Some ["boolean"; "string"]))) emptyNode in
  plain n /\ ~ In "" ["boolean"; "string"] /\ gives (drawing 1 0) n (JStr "ab") [] /\
  plain (set_sMinLength (Some 3) emptyNode) /\ gives (drawing 1 0) (set_sMinLength (Some 3) emptyNode) (JStr "abab") [] /\
  gives (drawing 5 0) emptyNode (JBool true) [].
Proof.
  cbv zeta. split; [constructor; reflexivity|]. split; [cbn; intuition discriminate|]. split; [demo|].
  split; [constructor; reflexivity|]. split; demo.
Qed.
