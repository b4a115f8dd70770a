(* C47 for schemas with references. *)
From Coq Require Import ZArith Reals List String Ascii Bool Lia.
From Flocq Require Import Core BinarySingleNaN.
From Verif Require Import Base Float64 Json Schema NodeFacts Util Options Number Gen GenInv PState RefPath Merge NotMerge Parse PFacts ParseKeep.
From Verif Require Import MergeFacts MergeProps MergeValid SpecMerge SpecNumber SpecSchema SpecRun SpecFragment ValueProps ParseShape Sound SpecRef SpecParse SpecRefs SpecLinked Linked.
From Verif Require Import ValueDemo NumberRefute P_Sound.
From Verif Require P_Refs P_Parse RefTree.
Import ListNotations.
Open Scope string_scope.
Open Scope Z_scope.

(* a schema that is not a reference does not become one *)
Lemma type_no_ref : forall PE f t n s g s', parseType PE (parseF PE f false) (merge PE f) t n s = Ok (Good g, s') -> forall dd q, g <> GRef dd q.
Proof.
  intros PE f t n s g s' H dd q. unfold parseType in H.
  repeat match type of H with (if ?b then _ else _) _ = _ => destruct b end;
    try (apply good_ok in H; destruct H as [-> _]; discriminate); try (apply bad_ok in H; destruct H; fail).
  - apply parseObject_shape in H. destruct H as (ps & pats & add & -> & _). discriminate.
  - apply parseArray_shape in H. cbv zeta in H. destruct H as (tu & it & ad & ct & un & -> & _). discriminate.
  - unfold parseNum in H. destruct (parseNumber n false) as [[x|x]|m]; [apply good_ok in H; destruct H as [-> _]; discriminate|apply good_ok in H; destruct H as [-> _]; discriminate|apply bad_ok in H; destruct H].
  - unfold parseNum in H. destruct (parseNumber n true) as [[x|x]|m]; [apply good_ok in H; destruct H as [-> _]; discriminate|apply good_ok in H; destruct H as [-> _]; discriminate|apply bad_ok in H; destruct H].
  - apply parseString_shape in H. destruct H as [-> _]. discriminate.
Qed.
Lemma tree_no_ref : forall PE f d n s g s', tree d n -> sRef n = None -> parseNode PE f n s = Ok (Good g, s') -> forall dd q, g <> GRef dd q.
Proof.
  intros PE f d n s g s' HT HR H dd q. destruct d as [|d]; [destruct HT|].
  destruct HT as (_ & HC & [X|(A1 & A2 & A3 & A4 & A5 & A6 & A7 & _)]); [congruence|].
  apply node_clean in H; auto. destruct H as (_ & f' & s1 & s2 & H & _).
  pose proof (step_supported _ _ _ _ _ _ H) as HU. unfold stepF, schemaStep in H. rewrite HU, HR, A1, A2, A3, A4, A5, A6, A7 in H. cbn [is_some orb] in H.
  assert (EN : parseEnum PE n s1 = Ok (Good g, s2) -> g <> GRef dd q).
  { intros X. apply parseEnum_shape in X. destruct X as (c & l & _ & _ & [(v & _ & ->)|(a & b & r & _ & ->)]); discriminate. }
  assert (CO : forall v, parseConst PE n v s1 = Ok (Good g, s2) -> g <> GRef dd q).
  { intros v X. apply parseConst_shape in X. destruct X as (c & _ & _ & ->). discriminate. }
  assert (MU : forall ts, parseMultiple PE (parseF PE f' false) (merge PE f') ts n s1 = Ok (Good g, s2) -> g <> GRef dd q).
  { intros ts X. unfold parseMultiple in X. apply pbind_ok in X. destruct X as (gs & s3 & _ & X). apply good_ok in X. destruct X as [-> _]. discriminate. }
  assert (TY : forall t, parseType PE (parseF PE f' false) (merge PE f') t n s1 = Ok (Good g, s2) -> g <> GRef dd q) by (intros t X; eapply type_no_ref; eauto).
  assert (BT : (match (match sType n with Some t => mtMultiple t | None => None end) with
     | Some ts => parseMultiple PE (parseF PE f' false) (merge PE f') ts n
     | None => match sType n with
       | Some t => if negb (String.eqb (mtSingle t) "") then parseType PE (parseF PE f' false) (merge PE f') (mtSingle t) n
                  else if String.eqb (inferType n) "unknown" then parseMultiple PE (parseF PE f' false) (merge PE f') typeAll n else parseType PE (parseF PE f' false) (merge PE f') (inferType n) n
       | None => if String.eqb (inferType n) "unknown" then parseMultiple PE (parseF PE f' false) (merge PE f') typeAll n else parseType PE (parseF PE f' false) (merge PE f') (inferType n) n
       end end) s1 = Ok (Good g, s2) -> g <> GRef dd q).
  { destruct (sType n) as [t|]; [destruct (mtMultiple t); [apply MU|destruct (String.eqb (mtSingle t) ""); cbn [negb]; [|apply TY]]|]; (destruct (String.eqb (inferType n) "unknown"); [apply MU|apply TY]). }
  destruct (sEnum n) as [[|x l]|]; [| exact (EN H)|]; (destruct (sConst n) as [v|]; [exact (CO v H)|exact (BT H)]).
Qed.

Lemma local_fine : forall PE refs doc root start g, agrees PE [] refs doc root start g ->
  (forall p m r, addressed root p = Some m -> sRef m = Some r -> exists t, names root r t) -> fine doc g.
Proof.
  intros PE refs doc root start g A HL p dd q P. destruct (A p _ P) as (m & Ha & _ & M).
  destruct (sRef m) as [r|] eqn:ER.
  - destruct (HL _ _ _ Ha ER) as [t N]. destruct (names_local root r t N) as (x & -> & Hx).
    destruct M as (fu & s & r0 & s' & H & HP & HS & _ & Hk & HD & E & [d T] & _). destruct r0 as [g0|]; [|discriminate]. subst g0.
    destruct d as [|d]; [destruct T|]. destruct T as (_ & HC & _).
    pose proof H as H'. apply parseNode_inv in H'. destruct H' as (f & _ & [(_ & X)|(_ & f' & s1 & r0 & s2 & _ & _ & _ & S1 & _ & _ & H1 & Hr)]); [exfalso; lia|].
    rewrite HC in Hr. subst r0.
    unfold stepF, schemaStep in H1. destruct (unsupported m); [apply bad_ok in H1; destruct H1|]. rewrite ER in H1. unfold parseReference in H1.
    destruct (containsStr _ _); [apply bad_ok in H1; destruct H1|]. apply pbind_ok in H1. destruct H1 as (y & s3 & H3 & H1). unfold deferredRef, refDoc, refPath in H3.
    rewrite (P_Refs.matchRef_local x Hx) in H3. cbn [String.eqb] in H3. injection H3 as <- <-. apply good_ok in H1. destruct H1 as [E _]. injection E as -> _. congruence.
  - exfalso. destruct M as (fu & s & r0 & s' & H & _ & _ & _ & _ & _ & E & [d T] & _). destruct r0 as [g0|]; [|discriminate]. subst g0. eapply tree_no_ref; eauto.
Qed.

(* Every value generated for a document with references to itself and to its definitions, recursive ones
   included, is valid against the document, whichever way its references are read, provided that the reading
   agrees with the document: unless a generator gave up at the cutoff or a reference was cut short.
   Missing from the full statement: references together with combinations, negations and conditions,
   references to other places and other documents, and what C47_valid_partial leaves out. *)
Theorem C47_references_partial : forall PE GE matches formatted refers fuel parsing rootId d root g s' st v st',
  smallOptions (eOpts GE) -> reads matches formatted root refers ->
  treeDocument d root -> linkedDocument PE GE matches formatted refers root d -> Z.of_nat d <= pxMaxDepth PE ->
  parsing = rootId \/ (forall from, pxFetch PE from (refDoc parsing) = None) ->
  parseDoc PE fuel parsing rootId root = Ok (Good g, s') -> pErrs s' = [] -> eRefs GE = pRefs s' ->
  yields GE g st v st' ->
  ~ emitted EvCutoff st st' -> ~ emitted EvMaxDepth st st' -> (forall k, ~ emitted (EvCyclic k) st st') ->
  valid matches formatted refers root v.
Proof.
  intros PE GE mt fm rf fuel parsing rootId d root g s' st v st' HO HR HT HL HD HP H HE HG HY N1 N2 N3.
  destruct (P_Refs.C31_table_partial _ _ _ _ _ _ _ _ H HT HD HP) as [A B]. rewrite HE in A, B. rewrite <- HG in A, B. destruct HL as (L1 & L2 & L3).
  assert (K : forall start t h, agrees PE [] (eRefs GE) parsing root start h -> addressed root start = Some t ->
    target (eRefs GE) parsing ("#" ++ pointer start) = Some h /\ fine parsing h /\
    exists f s s1, parseNode PE f t s = Ok (Good h, s1) /\ pErrs s1 = [] /\ pDepth s = 0).
  { intros start t h Ag At. destruct (Ag [] h (part_here h)) as (m & X & Y & Z0). rewrite app_nil_r in X, Y, Z0. rewrite At in X. injection X as <-.
    split; [exact Y|]. split; [eapply local_fine; eauto|].
    destruct Z0 as (f & s & r & s1 & P & Q1 & _ & Q3 & Q4 & Q5 & Q6 & _ & Q7). apply incl_l_nil in Q7.
    destruct r as [g0|m]; [|exfalso].
    - subst g0. exists f, s, s1. split; [exact P|]. split; [exact Q7|exact Q4].
    - apply P_Parse.C30_reported_partial in P; [|lia]. destruct P as [x P]. rewrite Q7 in P. destruct P. }
  assert (TB : forall r t, names root r t -> linked PE GE mt fm rf root d t /\ exists h, target (eRefs GE) parsing r = Some h /\ fine parsing h /\
     exists f s s', parseNode PE f t s = Ok (Good h, s') /\ pErrs s' = [] /\ pDepth s = 0).
  { intros r t N. destruct N as [|kwd k c I1 _ Hd].
    - split; [exact L1|]. exists g. exact (K [] root g A eq_refl).
    - split; [apply (L2 kwd k c I1 Hd)|]. assert (AD : addressed root [Named kwd k] = Some c) by (cbn [addressed]; rewrite Hd; reflexivity).
      assert (PO : "#/" ++ kwd ++ "/" ++ k = "#" ++ pointer [Named kwd k]).
      { cbn [pointer written]. rewrite append_nil_r. reflexivity. }
      rewrite PO. destruct (B k c) as [B1 B2]. destruct I1 as [<-|[<-|[]]]; [destruct (B1 Hd) as [h Ah]|destruct (B2 Hd) as [h Ah]]; exists h; exact (K _ c h Ah AD). }
  destruct (TB "#" root (names_root root)) as (_ & h & T & F & f & s & s1 & P & E1 & Z0).
  assert (h = g) by (destruct (K [] root g A eq_refl) as [X _]; cbn in X; rewrite X in T; congruence). subst h.
  eapply (linked_sound PE GE mt fm rf root parsing d HO HR HD TB (S (List.length (gLog st'))) d root L1 f s g s1 P E1); [lia|exact F|exact HY|].
  split; [exact N1|]. split; [exact N2|]. split; [exact N3|]. lia.
Qed.
Print Assumptions C47_references_partial.

(* Such a reading of the references exists for every document in which nothing is required not to be valid. *)
Theorem C47_reading : forall matches formatted root, positive root -> exists refers, reads matches formatted root refers.
Proof. exact reading_exists. Qed.
Print Assumptions C47_reading.

(* {"$ref": "#/$defs/node", "$defs": {"node": {"type": "object", "properties": {"value": {"type": "integer", "minimum": 1, "maximum": 9},
    "next": {"$ref": "#/$defs/node"}}, "required": ["value"], "additionalProperties": false}}} *)
Definition valueNode : schemaNode := set_sMinimum (Some (fofZ 1)) (set_sMaximum (Some (fofZ 9)) (typed "integer" emptyNode)).
Definition nextNode : schemaNode := set_sRef (Some "#/$defs/node") emptyNode.
Definition chainNode : schemaNode :=
  set_sProperties (Some [("value", valueNode); ("next", nextNode)]) (set_sRequired (Some ["value"]) (set_sAdditionalProperties noMore (typed "object" emptyNode))).
Definition chainDocument : schemaNode := set_sRef (Some "#/$defs/node") (set_sDefs (Some [("node", chainNode)]) emptyNode).
(* a reference may be entered again while it is open *)
Definition chainOptions : genOptions := mkOpts 0 0 0 0 0 0 0 0 0 true false 0 0 0 0 0.
Definition chainEnv (refs : list (string * list (string * gen))) : env :=
  mkEnv (withDefaults chainOptions) refs (fun i => if (i <? 2)%nat then 2 else 0) (fun _ => 3) (fun _ => "ab") (fun _ _ => "x") (fun _ _ => Ok "r")
    demoValid (fun _ _ => false) (fun _ _ => false).

Lemma chain_names : names chainDocument "#/$defs/node" chainNode.
Proof.
  apply (names_def chainDocument "$defs" "node" chainNode); [left; reflexivity| |reflexivity].
  cbn. intros X. repeat (destruct X as [X|X]; [discriminate X|]). exact X.
Qed.
Lemma chain_within : forall m, within chainDocument m -> m = chainDocument \/ m = chainNode \/ m = valueNode \/ m = nextNode.
Proof.
  assert (L1 : forall m, within valueNode m -> m = valueNode).
  { intros m W. inversion W as [|a b c I1 W1]; subst; auto. change (subnodes valueNode) with (@nil schemaNode) in I1. destruct I1. }
  assert (L2 : forall m, within nextNode m -> m = nextNode).
  { intros m W. inversion W as [|a b c I1 W1]; subst; auto. change (subnodes nextNode) with (@nil schemaNode) in I1. destruct I1. }
  assert (L3 : forall m, within chainNode m -> m = chainNode \/ m = valueNode \/ m = nextNode).
  { intros m W. inversion W as [|a b c I1 W1]; subst; auto. change (subnodes chainNode) with [valueNode; nextNode] in I1. destruct I1 as [<-|[<-|[]]]; auto. }
  intros m W. inversion W as [|a b c I1 W1]; subst; auto. change (subnodes chainDocument) with [chainNode] in I1. destruct I1 as [<-|[]]; auto.
Qed.
Lemma addressed_within : forall p n m, addressed n p = Some m -> within n m.
Proof.
  induction p as [|st p IH]; intros n m H; cbn [addressed] in H; [injection H as <-; apply within_refl|].
  destruct (down n st) as [c|] eqn:E; [|discriminate]. apply RefTree.down_sub in E. eapply within_step; eauto.
Qed.
Lemma chain_positive : positive chainDocument.
Proof. intros m W. apply chain_within in W. destruct W as [->|[->|[->| ->]]]; repeat split; reflexivity. Qed.
Lemma chain_tree : treeDocument 2 chainDocument.
Proof.
  assert (TR : tree 1 nextNode) by (split; [reflexivity|split; [reflexivity|left; discriminate]]).
  assert (TV : tree 1 valueNode).
  { split; [reflexivity|]. split; [reflexivity|]. right. do 7 (split; [reflexivity|]). split; [apply RefTree.clear_none|]. split; [apply RefTree.clear_none|].
    split; [intros t ts X Y; injection X as <-; discriminate Y|]. split; [intros it X; discriminate X|]. split; [intros a X; discriminate X|].
    intros st c X. apply RefTree.down_sub in X. change (subnodes valueNode) with (@nil schemaNode) in X. destruct X. }
  assert (TC : tree 2 chainNode).
  { split; [reflexivity|]. split; [reflexivity|]. right. do 7 (split; [reflexivity|]).
    split; [split; [change (NoDup ["value"; "next"]); repeat constructor; cbn; intuition discriminate|intros k K; change (In k ["value"; "next"]) in K; destruct K as [<-|[<-|[]]]; cbn; intuition discriminate]|].
    split; [apply RefTree.clear_none|].
    split; [intros t ts X Y; injection X as <-; discriminate Y|]. split; [intros it X; discriminate X|]. split; [intros a X; discriminate X|].
    intros st c X. apply RefTree.down_sub in X. change (subnodes chainNode) with [valueNode; nextNode] in X. destruct X as [<-|[<-|[]]]; auto. }
  split; [split; [reflexivity|split; [reflexivity|left; discriminate]]|]. split; [|split; [apply RefTree.clear_none|]].
  - split; [change (NoDup ["node"]); repeat constructor; cbn; tauto|intros k K; change (In k ["node"]) in K; destruct K as [<-|[]]; cbn; intuition discriminate].
  - intros k c [X|X]; [|discriminate X]. change (assoc k [("node", chainNode)] = Some c) in X. apply assoc_In in X. destruct X as [X|[]]. apply pair_equal_spec in X. destruct X as [_ <-]. exact TC.
Qed.
Lemma chain_linked : forall GE mt fm rf, eOpts GE = withDefaults chainOptions -> linkedDocument demoPE GE mt fm rf chainDocument 2.
Proof.
  intros GE mt fm rf HO.
  assert (B : forall d ds, linked demoPE GE mt fm rf chainDocument (S d) (set_sRef (Some "#/$defs/node") (set_sDefs ds emptyNode))).
  { intros d ds. left. exists "#/$defs/node", chainNode, ds, None. split; [reflexivity|exact chain_names]. }
  split; [apply B|]. split.
  - intros kwd k c I1 X. assert (Y : k = "node" /\ c = chainNode).
    { destruct I1 as [<-|[<-|[]]]; [|discriminate X]. change (assoc k [("node", chainNode)] = Some c) in X. apply assoc_In in X. destruct X as [X|[]]. apply pair_equal_spec in X. destruct X; auto. }
    destruct Y as [-> ->]. split; [|cbn; intuition discriminate].
    right. right. right. split; [apply small_by; vm_compute; reflexivity|]. split; [constructor; reflexivity|]. split; [|intros x ts T; discriminate T].
    intros t [<-|[]]. split; [cbn; tauto|]. do 4 (split; [intros T; discriminate T|]). intros _. unfold keyed. rewrite HO.
    split; [apply no_patterns; reflexivity|]. split; [change (NoDup ["value"; "next"]); repeat constructor; cbn; intuition discriminate|].
    split; [discriminate|]. split; [intros m T; discriminate T|]. split.
    { intros k0 K (i & _ & E). change (In k0 ["value"] \/ In k0 ["value"; "next"]) in K. cbn [In] in K. repeat (destruct K as [K|K]); subst; try destruct K; repeat (destruct E as [E|E]); cbn in E; discriminate E. }
    split; [intros k0 [<-|[]]; left; change (In "value" ["value"; "next"]); cbn; tauto|]. split.
    { intros _. split; [|vm_compute; intros T; discriminate T]. change (NoDup ["value"]). repeat constructor. cbn. tauto. }
    intros c [[k0 K]|[[k0 []]|K]]; [|discriminate K]. change (In (k0, c) [("value", valueNode); ("next", nextNode)]) in K.
    destruct K as [K|[K|[]]]; apply pair_equal_spec in K; destruct K as [_ <-]; [|exact (B 0%nat None)].
    right. right. right. split; [apply small_by; vm_compute; reflexivity|]. split; [constructor; reflexivity|]. split; [|intros x ts T; discriminate T].
    intros t [<-|[]]. apply integer_only; [|reflexivity]. unfold keywordsWithin.
    change (sMinimum _) with (Some (fofZ 1)). change (sMaximum _) with (Some (fofZ 9)).
    split; [split; [apply (fofZ_F 1); lia|rewrite (fofZ_B 1) by lia; rewrite <- abs_IZR; apply IZR_le; lia]|].
    split; [split; [apply (fofZ_F 9); lia|rewrite (fofZ_B 9) by lia; rewrite <- abs_IZR; apply IZR_le; lia]|].
    split; [exact Logic.I|split; [exact Logic.I|exact Logic.I]].
  - intros p m r A R. apply addressed_within in A. apply chain_within in A.
    destruct A as [->|[->|[->| ->]]]; try discriminate R; injection R as <-; exists chainNode; exact chain_names.
Qed.

Definition runLinked (k1 k2 : nat) (n : schemaNode) : option (json * list event * list ((string * string) * string)) :=
  match parseDoc demoPE k1 "file:///w/doc" "file:///w/doc" n with
  | Ok (Good g, s) => match generate (chainEnv (pRefs s)) k2 g start with Ok (v, st) => Some (v, gLog st, pErrs s) | _ => None end
  | _ => None
  end.
Lemma runLinked_ok : forall k1 k2 n v l, runLinked k1 k2 n = Some (v, l, []) ->
  exists g s' st', parseDoc demoPE k1 "file:///w/doc" "file:///w/doc" n = Ok (Good g, s') /\ pErrs s' = [] /\ yields (chainEnv (pRefs s')) g start v st' /\ gLog st' = l.
Proof.
  intros k1 k2 n v l H. unfold runLinked in H. destruct (parseDoc _ _ _ _ _) as [[[g|] s]| |]; try discriminate.
  destruct (generate _ k2 g start) as [[w st]| |] eqn:G; try discriminate.
  assert (E : w = v /\ gLog st = l /\ pErrs s = []) by (injection H as H1 H2 H3; auto). destruct E as (-> & E1 & E2).
  exists g, s, st. split; [reflexivity|]. split; [exact E2|]. split; [exists k2; exact G|exact E1].
Qed.
Example C47_case_references : positive chainDocument /\ treeDocument 2 chainDocument /\
  exists fuel g s' st', parseDoc demoPE fuel "file:///w/doc" "file:///w/doc" chainDocument = Ok (Good g, s') /\ pErrs s' = [] /\
    linkedDocument demoPE (chainEnv (pRefs s')) (fun _ _ => True) (fun _ _ => True) (fun _ _ => True) chainDocument 2 /\
    yields (chainEnv (pRefs s')) g start (JObj [("value", JInt 1); ("next", JObj [("value", JInt 1)])]) st' /\
    forall e, emitted e start st' -> exists k l, e = EvEnter k l.
Proof.
  split; [exact chain_positive|]. split; [exact chain_tree|].
  destruct (runLinked_ok 30 60 chainDocument (JObj [("value", JInt 1); ("next", JObj [("value", JInt 1)])])
    [EvEnter "file:///w/doc|#/$defs/node" ["file:///w/doc|#/$defs/node"]; EvEnter "file:///w/doc|#/$defs/node" []]) as (g & s' & st' & A & B & C & D);
    [vm_compute; reflexivity|].
  exists 30%nat, g, s', st'. split; [exact A|]. split; [exact B|]. split; [apply chain_linked; reflexivity|]. split; [exact C|].
  intros e (l & X & I1). rewrite D in X. change (gLog start) with (@nil event) in X. rewrite app_nil_r in X. subst l. destruct I1 as [<-|[<-|[]]]; eauto.
Qed.
