(* Properties C29, C30 and C31: parsing ends and restores its position, records errors, and registers the
   generators that references resolve to.  errorAt, target, settles, documentSettles: SpecParse.v;
   yields: SpecRun.v. *)
From Coq Require Import ZArith List String Ascii Bool Lia.
From Verif Require Import Base Float64 Json Schema NodeFacts Util Number Options Gen GenFacts GenInv Codec PState PFacts RefPath Merge NotMerge Parse ParseKeep MergeProps FuelMono
  SpecRun SpecParse DocProps Terminate ParseEnds ParseLoop.
Import ListNotations.
Open Scope string_scope.
Open Scope Z_scope.

(* ------------------------------------------------------------------ C29 *)

(* Whatever the node, and whether or not it is turned into a generator: afterwards the parser is at the
   same path of the same document, at the same depth, with the same references being resolved. *)
Theorem C29_restored : forall E fuel n s r s', parseNode E fuel n s = Ok (r, s') ->
  pPath s' = pPath s /\ pDepth s' = pDepth s /\ pStack s' = pStack s /\ pParsing s' = pParsing s.
Proof. intros E fuel n s r s' H. apply st_parseNode in H. destruct H. auto. Qed.
Print Assumptions C29_restored.

(* [pDeep] is the greatest depth at which a node was parsed *)
Lemma drain_deep : forall E fuel k s s', drain E fuel k s = Ok (tt, s') -> pDeep s' <= Z.max (pDeep s) (pxMaxDepth E) /\ (exists l, pErrs s' = (l ++ pErrs s)%list).
Proof.
  induction k as [|k IH]; intros s s' H; [discriminate|]. cbn [drain] in H. apply pbind_ok in H. destruct H as (t & t1 & H0 & H). apply pget_ok in H0. destruct H0 as [-> ->].
  destruct (pQueue s) as [|id rest]; [apply pret_ok in H; destruct H as [_ ->]; split; [lia|exists []; auto]|].
  apply pbind_ok in H. destruct H as ([] & s1 & H1 & H). apply IH in H. destruct H as [H [l Hl]].
  enough (N : pDeep s1 <= Z.max (pDeep s) (pxMaxDepth E) /\ exists l, pErrs s1 = (l ++ pErrs s)%list).
  { destruct N as [N [l' Hl']]. split; [lia|]. exists (l ++ l')%list. rewrite Hl, Hl', app_assoc. reflexivity. }
  clear IH H Hl l. unfold parseNext in H1. apply pbind_ok in H1. destruct H1 as (u & t & Hu & H1). apply pmod_ok in Hu.
  apply pbind_ok in H1. destruct H1 as (d & t1 & Hd & H1). apply pbind_ok in H1. destruct H1 as (ok & t2 & Hok & H1).
  assert (A1 : pDeep t = pDeep s /\ pErrs t = pErrs s) by (subst t; split; reflexivity).
  assert (A2 : pDeep t1 = pDeep t /\ pErrs t1 = pErrs t).
  { unfold resolveDocument in Hd. destruct (String.eqb (refDoc id) "" || negb (pxFetchers E)); [injection Hd as _ <-; auto|].
    destruct (pxFetch E (pParsing t) (refDoc id)); [|injection Hd as _ <-; auto].
    apply pbind_ok in Hd. destruct Hd as (v & t3 & Hv & Hd). apply pret_ok in Hd. destruct Hd as [_ ->]. unfold addDocument, pmod in Hv. injection Hv as _ <-. destruct (assoc (refDoc id) (pDocs t)); split; reflexivity. }
  assert (A3 : pDeep t2 <= Z.max (pDeep t1) (pxMaxDepth E) /\ exists l, pErrs t2 = (l ++ pErrs t1)%list).
  { destruct d as [m|e].
    - apply pbind_ok in Hok. destruct Hok as (v & t3 & Hv & Hok). apply pmod_ok in Hv. apply pbind_ok in Hok. destruct Hok as (w & t4 & Hw & Hok).
      apply pret_ok in Hok. destruct Hok as [_ ->]. apply (st_parseRoot E) in Hw. destruct Hw. subst t3. cbn [pDeep pErrs withDone] in *. auto.
    - apply pret_ok in Hok. destruct Hok as [_ ->]. split; [lia|exists []; auto]. }
  assert (A4 : pDeep s1 = pDeep t2 /\ exists l, pErrs s1 = (l ++ pErrs t2)%list).
  { destruct ok; [apply pret_ok in H1; destruct H1 as [_ ->]; split; [auto|exists []; auto]|].
    unfold addErrSub in H1. apply pmod_ok in H1. subst s1. split; [reflexivity|]. eexists [_]. reflexivity. }
  destruct A1 as [B1 C1], A2 as [B2 C2], A3 as [B3 [l3 C3]], A4 as [B4 [l4 C4]]. split; [lia|].
  exists (l4 ++ l3)%list. rewrite C4, C3, C2, C1, app_assoc. reflexivity.
Qed.
Theorem C29_depth : forall E fuel parsing rootId n r s', 0 <= pxMaxDepth E -> parseDoc E fuel parsing rootId n = Ok (r, s') ->
  pDeep s' <= pxMaxDepth E.
Proof.
  intros E fuel parsing rootId n r s' HM H. unfold parseDoc in H. apply pbind_ok in H. destruct H as (g & s1 & H1 & H). apply pbind_ok in H. destruct H as ([] & s2 & H2 & H).
  apply pret_ok in H. destruct H as [_ ->]. apply drain_deep in H2. destruct H2 as [H2 _]. apply (st_parseRoot E) in H1. destruct H1.
  cbn [initP pDeep] in *. lia.
Qed.
Print Assumptions C29_depth.

(* Parsing a document ends if it and the documents it can fetch contain references only as whole
   schemas outside combinators, conditions, negations and contains, and finitely many documents can be
   named.  Missing from the full statement: schemas with references below allOf, anyOf, oneOf, not, if or
   contains, for some of which it is false (next theorem); unboundedly many documents. *)
Theorem C29_ends_partial : forall E parsing rootId n ids, documentSettles n ->
  (forall p d m, pxFetch E p d = Some m -> documentSettles m) ->
  (forall p scope doc id, pxResolveId E p scope doc = Some id -> In id ids) ->
  exists fuel, parseDoc E fuel parsing rootId n <> Timeout.
Proof. exact document_ends. Qed.
Print Assumptions C29_ends_partial.
(* and the outcome does not depend on the fuel of the model *)
Theorem C29_outcome : forall E fuel fuel' parsing rootId n, (fuel <= fuel')%nat -> parseDoc E fuel parsing rootId n <> Timeout ->
  parseDoc E fuel' parsing rootId n = parseDoc E fuel parsing rootId n.
Proof. exact parseDoc_mono. Qed.
Print Assumptions C29_outcome.

(* {"$defs": {"a": {"allOf": [{"type": "string"}, {"not": {"const": "x"}}]}}, "properties": {"next": {"$ref": "#"}}} *)
Definition endsNode : schemaNode :=
  set_sDefs (Some [("a", set_sAllOf (Some [set_sType (Some (mkMT "string" None)) emptyNode; set_sNot (Some (set_sConst (Some (JStr "x")) emptyNode)) emptyNode]) emptyNode)])
  (set_sProperties (Some [("next", set_sRef (Some "#") emptyNode)]) emptyNode).
Example C29_case : documentSettles endsNode /\
  match parseDoc demoPE 40 loopDoc loopDoc endsNode with Ok (Good _, s) => pDeep s = 3 /\ pDepth s = 0 /\ pPath s = "#" | _ => False end.
Proof.
  split; [|vm_compute; auto]. split.
  - apply settles_plain; try reflexivity. intros c Hc. cbn in Hc. destruct Hc as [<-|[]]. apply (settles_ref _ "#"). reflexivity.
  - intros c Hc. cbn in Hc. destruct Hc as [<-|[]]. apply settles_free.
    apply nr_intro; [reflexivity|]. intros c Hc. cbn in Hc.
    destruct Hc as [<-|[<-|[]]]; (apply nr_intro; [reflexivity|]); cbn; [intros c []|]. intros c [<-|[]]. apply nr_intro; [reflexivity|intros d []].
Qed.

(* {"not": {"not": {"$ref": "#"}}} in a document with an id, maximum depth 100: parsing never ends.
   The contents of a double negation are merged into the node and the node is parsed again, at the same
   depth. *)
Theorem C29_ends_refuted : exists E parsing rootId n, pxMaxDepth E = 100 /\
  n = set_sNot (Some (set_sNot (Some (set_sRef (Some "#") emptyNode)) emptyNode)) emptyNode /\
  forall fuel, parseDoc E fuel parsing rootId n = Timeout.
Proof. exists demoPE, loopDoc, loopDoc, (notNot "#"). split; [reflexivity|]. split; [reflexivity|]. exact never_ends. Qed.
Print Assumptions C29_ends_refuted.

(* ------------------------------------------------------------------ C30 *)

(* a node that could not be turned into a generator, within the maximum depth: an error is recorded for
   its path.  Missing from the full statement: nodes beyond the maximum depth and the members of a list of
   types (refuted below). *)
Theorem C30_reported_partial : forall E fuel n s t s', parseNode E fuel n s = Ok (Bad t, s') -> pDepth s + 1 <= pxMaxDepth E ->
  errorAt s' (pParsing s) (pPath s).
Proof.
  intros E fuel n s t s' H HD. destruct fuel as [|f]; [discriminate|]. unfold parseNode in H. cbn [parseF] in H. unfold nodeStep in H.
  apply pbind_ok in H. destruct H as (s0 & s1 & H0 & H). apply pget_ok in H0. destruct H0 as [-> ->].
  apply pbind_ok in H. destruct H as (u1 & s1 & H1 & H). apply pmod_ok in H1.
  apply pbind_ok in H. destruct H as (r & s2 & H2 & H). apply pbind_ok in H. destruct H as (s3 & s4 & H3 & H). apply pget_ok in H3. destruct H3 as [-> ->].
  apply pbind_ok in H. destruct H as (u2 & s3 & H3 & H). apply pmod_ok in H3. apply pret_ok in H. destruct H as [<- ->].
  destruct (pxMaxDepth E <? pDepth s + 1) eqn:L; [apply Z.ltb_lt in L; lia|].
  apply pbind_ok in H2. destruct H2 as (u4 & s4 & H4 & H2). apply pmod_ok in H4.
  apply pbind_ok in H2. destruct H2 as (q & s5 & H5 & H2). apply pbind_ok in H2. destruct H2 as (u6 & s6 & H6 & H2).
  apply pbind_ok in H2. destruct H2 as (u7 & s7 & H7 & H2). apply pbind_ok in H2. destruct H2 as (u8 & s8 & H8 & H2).
  assert (R : q = Bad t /\ s2 = s8) by (destruct (sConstraints n); [apply pret_ok in H2; destruct H2 as [H2 _]; discriminate|apply pret_ok in H2; destruct H2; auto]).
  destruct R as [-> ->]. cbn [isBad] in H6. apply st_parseF in H5.
  assert (Q : errorAt s6 (pParsing s) (pPath s)).
  { unfold addErr, addErrSub in H6. apply pmod_ok in H6. subst s6. exists "parse". left. destruct H5. subst s4 s1. cbn [pParsing pPath withDeep withDepth withErrs] in *.
    rewrite kParsing, kPath. f_equal. f_equal. clear. induction (pPath s) as [|c p IH]; [reflexivity|]. cbn. rewrite IH. reflexivity. }
  assert (A7 : errorAt s7 (pParsing s) (pPath s)).
  { destruct (sId n); [unfold addIdRef in H7; apply pmod_ok in H7; subst s7; exact Q|apply pret_ok in H7; destruct H7 as [_ ->]; exact Q]. }
  assert (A8 : errorAt s8 (pParsing s) (pPath s)).
  { unfold addRef, addIdRef in H8. apply pmod_ok in H8. subst s8. exact A7. }
  subst s3. exact A8.
Qed.
Print Assumptions C30_reported_partial.

(* once recorded, an error is part of the result: through the parse of any node, and of all the documents *)
Theorem C30_kept : forall E fuel n s r s' doc path, parseNode E fuel n s = Ok (r, s') -> errorAt s doc path -> errorAt s' doc path.
Proof.
  intros E fuel n s r s' doc path H [t Ht]. apply st_parseNode in H. destruct H as [_ _ _ _ [l Hl]]. exists t. rewrite Hl. apply in_or_app. auto.
Qed.
Print Assumptions C30_kept.
Theorem C30_kept_documents : forall E fuel parsing rootId n r s', parseDoc E fuel parsing rootId n = Ok (r, s') ->
  exists s, parseRoot E fuel n (initP E parsing rootId n) = Ok (r, s) /\ forall doc path, errorAt s doc path -> errorAt s' doc path.
Proof.
  intros E fuel parsing rootId n r s' H. unfold parseDoc in H. apply pbind_ok in H. destruct H as (g & s1 & H1 & H). apply pbind_ok in H. destruct H as ([] & s2 & H2 & H).
  apply pret_ok in H. destruct H as [-> ->]. exists s1. split; [exact H1|]. apply drain_deep in H2. destruct H2 as [_ [l Hl]].
  intros doc path [t Ht]. exists t. rewrite Hl. apply in_or_app. auto.
Qed.
Print Assumptions C30_kept_documents.

(* a property {"minLength": 5, "maxLength": 2}: refused, and recorded *)
Definition badString : schemaNode := set_sMinLength (Some 5) (set_sMaxLength (Some 2) emptyNode).
Example C30_case : match parseNode demoPE 5 badString demoP with Ok (Bad _, s) => pErrs s = [(("file:///w/", "#"), "parse")] | _ => False end /\ pDepth demoP + 1 <= pxMaxDepth demoPE.
Proof. split; [vm_compute; auto|cbn; lia]. Qed.

(* MaxParseDepth 2 and a schema nested three deep: the innermost schema becomes null and nothing is recorded *)
Definition shallowPE : penv := mkPE 2 false (fun _ _ _ => None) (fun _ _ => None) (fun _ _ => "") (fun _ => false)
  (fun _ => true) (fun _ => true) (fun _ => true) (fun _ => true) (fun _ _ => true) (fun _ => true).
Definition nested (n : schemaNode) : schemaNode := set_sProperties (Some [("a", n)]) emptyNode.
Theorem C30_depth_refuted : exists fuel,
  match parseDoc shallowPE fuel loopDoc loopDoc (nested (nested (set_sType (Some (mkMT "string" None)) emptyNode))) with
  | Ok (Good (GObject [("a", GObject [("a", GNull)] _ _ _)] _ _ _), s') => pErrs s' = []
  | _ => False
  end.
Proof. exists 20%nat. vm_compute. auto. Qed.
Print Assumptions C30_depth_refuted.

(* {"type": ["string", "integer"], "minLength": 5, "maxLength": 2}: no string generator can be made for
   it (it is refused with "type": "string"), null stands in for it and nothing is recorded *)
Theorem C30_types_refuted : exists fuel, let n := set_sType (Some (mkMT "" (Some ["string"; "integer"]))) badString in
  match parseDoc demoPE fuel loopDoc loopDoc n with Ok (Good (GMulti [GNull; _]), s') => pErrs s' = [] | _ => False end /\
  match parseDoc demoPE fuel loopDoc loopDoc (set_sType (Some (mkMT "string" None)) n) with Ok (Bad _, _) => True | _ => False end.
Proof. exists 20%nat. vm_compute. auto. Qed.
Print Assumptions C30_types_refuted.

(* ------------------------------------------------------------------ C31 *)

(* When a node has been parsed, its path of the document stands for the generator that was made: exactly
   the one used where the node stands, or null if it was refused.
   Missing from the full statement: that nothing parsed later registers the same path (refuted below). *)
Theorem C31_registers_partial : forall E fuel n s r s', parseNode E fuel n s = Ok (r, s') -> pDepth s + 1 <= pxMaxDepth E -> sConstraints n = None ->
  target (pRefs s') (pParsing s) (pPath s) = Some (match r with Good g => g | Bad _ => GNull end).
Proof.
  intros E fuel n s r s' H HD HC. destruct fuel as [|f]; [discriminate|]. unfold parseNode in H. cbn [parseF] in H. unfold nodeStep in H.
  apply pbind_ok in H. destruct H as (s0 & s1 & H0 & H). apply pget_ok in H0. destruct H0 as [-> ->].
  apply pbind_ok in H. destruct H as (u1 & s1 & H1 & H). apply pmod_ok in H1.
  apply pbind_ok in H. destruct H as (q & s2 & H2 & H). apply pbind_ok in H. destruct H as (s3 & s4 & H3 & H). apply pget_ok in H3. destruct H3 as [-> ->].
  apply pbind_ok in H. destruct H as (u2 & s3 & H3 & H). apply pmod_ok in H3. apply pret_ok in H. destruct H as [-> ->].
  destruct (pxMaxDepth E <? pDepth s + 1) eqn:L; [apply Z.ltb_lt in L; lia|].
  apply pbind_ok in H2. destruct H2 as (u4 & s4 & H4 & H2). apply pmod_ok in H4.
  apply pbind_ok in H2. destruct H2 as (r0 & s5 & H5 & H2). apply pbind_ok in H2. destruct H2 as (u6 & s6 & H6 & H2).
  apply pbind_ok in H2. destruct H2 as (u7 & s7 & H7 & H2). apply pbind_ok in H2. destruct H2 as (u8 & s8 & H8 & H2).
  rewrite HC in H2. apply pret_ok in H2. destruct H2 as [-> ->].
  apply st_parseF in H5.
  assert (A6 : pParsing s6 = pParsing s /\ pPath s6 = pPath s).
  { destruct H5. subst s4 s1. cbn [pParsing pPath withDeep withDepth] in *.
    destruct (isBad r0); [unfold addErr, addErrSub in H6; apply pmod_ok in H6; subst s6; split; auto|apply pret_ok in H6; destruct H6 as [_ ->]; split; auto]. }
  assert (A7 : pParsing s7 = pParsing s /\ pPath s7 = pPath s).
  { destruct (sId n); [unfold addIdRef in H7; apply pmod_ok in H7; subst s7; exact A6|apply pret_ok in H7; destruct H7 as [_ ->]; exact A6]. }
  unfold addRef, addIdRef in H8. apply pmod_ok in H8. destruct A7 as [B C].
  enough (X : target (pRefs s8) (pParsing s) (pPath s) = Some (orNull r0)) by (subst s3; exact X).
  subst s8. unfold target. cbn [pRefs withRefs]. rewrite B, C, assoc_massign_same, assoc_massign_same. reflexivity.
Qed.
Print Assumptions C31_registers_partial.

(* A reference with a target, before the cutoff, within MaximumReferenceDepth and not cyclic: the value is
   the one the target's generator makes from the same random numbers, one unit of complexity further on
   and with the reference entered; afterwards the reference has been left. *)
Theorem C31_behaves : forall GE doc path g st v st', target (eRefs GE) doc path = Some g ->
  shouldCutoff (eOpts GE) (gCx st + 1) = false -> Z.of_nat (List.length (gStack st)) <= oMaximumReferenceDepth (eOpts GE) ->
  (In (doc ++ "|" ++ path) (gStack st) -> oBypassCyclicReferenceCheck (eOpts GE) = true) ->
  (yields GE (GRef doc path) st v st' <->
   exists a b, yields GE g a v b /\
     gPos a = gPos st /\ gGlob a = gGlob st /\ gCx a = gCx st + 1 /\ gStack a = (doc ++ "|" ++ path) :: gStack st /\
     gLog a = EvEnter (doc ++ "|" ++ path) (gStack st) :: gLog st /\
     gPos st' = gPos b /\ gGlob st' = gGlob b /\ gCx st' = gCx b /\ gStack st' = tl (gStack b) /\ gLog st' = gLog b).
Proof.
  intros GE doc path g st v st' HT HC HL HK. change (doc ++ "|" ++ path) with (refKey doc path) in *.
  assert (EQ : forall f, generate GE (S f) (GRef doc path) st =
    bind (generate GE f g (mkG (gPos st) (gGlob st) (gCx st + 1) (refKey doc path :: gStack st) (EvEnter (refKey doc path) (gStack st) :: gLog st)))
      (fun r => let '(v, b) := r in Ok (v, mkG (gPos b) (gGlob b) (gCx b) (tl (gStack b)) (gLog b)))).
  { intros f. cbn [generate]. unfold genStep, genRef, guarded, tick, cutoff, getCx, lookup, target in *. unfold bindM, ret. cbv beta iota.
    destruct st as [po gl cx sk lg]. cbn [gPos gGlob gCx gStack gLog] in *. rewrite HC.
    destruct (assoc doc (eRefs GE)) as [m|]; [|discriminate]. rewrite HT.
    unfold bindM, ret, getStack, emit, pushRef, popRef. cbv beta iota. cbn [gPos gGlob gCx gStack gLog].
    destruct (oMaximumReferenceDepth (eOpts GE) <? Z.of_nat (List.length sk)) eqn:L; [apply Z.ltb_lt in L; lia|].
    assert (B : mem_string (refKey doc path) sk && negb (oBypassCyclicReferenceCheck (eOpts GE)) = false).
    { destruct (mem_string (refKey doc path) sk) eqn:M; [|reflexivity]. rewrite HK; [reflexivity|]. apply mem_string_In. exact M. }
    rewrite B. unfold bind. destruct (generate GE f g _) as [[w b]| |]; reflexivity. }
  split.
  - intros [f H]. destruct f as [|f]; [discriminate|]. rewrite EQ in H.
    destruct (generate GE f g _) as [[w b]| |] eqn:Eg in H; [|discriminate|discriminate]. cbn [bind] in H.
    assert (W : w = v /\ st' = mkG (gPos b) (gGlob b) (gCx b) (tl (gStack b)) (gLog b)) by (split; congruence). destruct W as [-> ->].
    exists (mkG (gPos st) (gGlob st) (gCx st + 1) (refKey doc path :: gStack st) (EvEnter (refKey doc path) (gStack st) :: gLog st)), b. split; [exists f; exact Eg|]. cbn. auto 20.
  - intros (a & b & [f H] & A1 & A2 & A3 & A4 & A5 & B1 & B2 & B3 & B4 & B5). exists (S f). rewrite EQ.
    destruct a, st'. cbn in *. subst. rewrite H. reflexivity.
Qed.
Print Assumptions C31_behaves.

Definition typed (t : string) : schemaNode := set_sType (Some (mkMT t None)) emptyNode.
(* the properties "a" (with a property "b") and "a/properties/b" of one object have the same path: a
   reference to the former's "b" is a boolean although "b" is a string there *)
Theorem C31_collision_refuted : exists fuel,
  match parseDoc demoPE fuel loopDoc loopDoc
    (set_sProperties (Some [("a", set_sProperties (Some [("b", typed "string")]) emptyNode); ("a/properties/b", typed "boolean");
                            ("r", set_sRef (Some "#/properties/a/properties/b") emptyNode)]) emptyNode) with
  | Ok (Good (GObject [(_, GObject [("b", GString _ _ _ _)] _ _ _); _; ("r", GRef d p)] _ _ _), s') =>
      p = "#/properties/a/properties/b" /\ target (pRefs s') d p = Some GBool /\ pErrs s' = []
  | _ => False
  end.
Proof. exists 20%nat. vm_compute. auto. Qed.
Print Assumptions C31_collision_refuted.
(* a property of a schema that also has anyOf: nothing is registered for its path, so a reference to it
   is never resolved, and no error is recorded *)
Theorem C31_missing_refuted : exists fuel,
  match parseDoc demoPE fuel loopDoc loopDoc
    (set_sProperties (Some [("a", typed "string"); ("r", set_sRef (Some "#/properties/a") emptyNode)])
      (set_sAnyOf (Some [set_sRequired (Some ["a"]) emptyNode; set_sRequired (Some ["r"]) emptyNode]) emptyNode)) with
  | Ok (Good (GComb [GObject [_; ("r", GRef d p)] _ _ _; _]), s') => p = "#/properties/a" /\ target (pRefs s') d p = None /\ pErrs s' = []
  | _ => False
  end.
Proof. exists 20%nat. vm_compute. auto. Qed.
Print Assumptions C31_missing_refuted.
(* a reference into a name with an escaped slash is not resolved *)
Theorem C31_escape_refuted : exists fuel,
  match parseDoc demoPE fuel loopDoc loopDoc
    (set_sProperties (Some [("a/b", typed "string"); ("r", set_sRef (Some "#/properties/a~1b") emptyNode)]) emptyNode) with
  | Ok (Good (GObject [("a/b", GString _ _ _ _); ("r", GRef d p)] _ _ _), s') => target (pRefs s') d p = None /\ pErrs s' = []
  | _ => False
  end.
Proof. exists 20%nat. vm_compute. auto. Qed.
Print Assumptions C31_escape_refuted.
Example C31_case :
  match parseDoc demoPE 20 loopDoc loopDoc (set_sProperties (Some [("a", typed "boolean"); ("r", set_sRef (Some "#/properties/a") emptyNode)]) emptyNode) with
  | Ok (Good (GObject [("a", GBool); ("r", GRef d p)] _ _ _), s') => target (pRefs s') d p = Some GBool /\ pErrs s' = []
  | _ => False
  end.
Proof. vm_compute. auto. Qed.
Definition refEnv : env :=
  mkEnv (withDefaults zeroOptions) [("doc", [("#/$defs/a", GMulti [GConst (JStr "x"); GRef "doc" "#/$defs/b"]); ("#/$defs/b", GBool)])]
    (fun i => Z.of_nat i) (fun _ => 0) (fun _ => "") (fun _ _ => "") (fun _ _ => Ok "") (fun _ _ => true) (fun _ _ => true) (fun _ _ => true).
Example C31_behaves_case :
  (exists g, target (eRefs refEnv) "doc" "#/$defs/a" = Some g) /\ shouldCutoff (eOpts refEnv) (gCx (initG 1 0) + 1) = false /\
  Z.of_nat (List.length (gStack (initG 1 0))) <= oMaximumReferenceDepth (eOpts refEnv) /\
  match generate refEnv 10 (GRef "doc" "#/$defs/a") (initG 1 0) with Ok (JBool _, st) => gStack st = [] /\ gCx st = 2 /\ gPos st = 3%nat | _ => False end.
Proof. split; [eexists; reflexivity|]. split; [vm_compute; reflexivity|]. split; [vm_compute; discriminate|]. vm_compute. auto. Qed.
