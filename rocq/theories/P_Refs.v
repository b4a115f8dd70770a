(* Property C31, continued: which generator the table of references holds for which path.
   Steps, pointers and addressed schemas: SpecRef.v; parts of generators and documents without
   combinations: SpecRefs.v; rounds of the queue: SpecFetch.v. *)
From Coq Require Import ZArith List String Ascii Bool Lia.
From Verif Require Import Base Float64 Json Schema NodeFacts Util Number Options Gen Codec PState PFacts RefPath Merge NotMerge Parse ParseKeep.
From Verif Require Import SpecRef SpecParse SpecFetch SpecRefs ParseShape DocProps RefRounds MergeProps ParseLoop Fetch FetchProps.
From Verif Require RefTree P_Fetch.
Import ListNotations.
Open Scope string_scope.
Open Scope Z_scope.

(* For a document without combinations, negations and conditions, with plain names: at the end of the
   parse the table of references agrees with the document.  Every part of the generator stands in it under
   the path of the schema it was made from, and the same holds of every definition; other documents do not
   interfere.  Missing from the full statement: schemas with combinations (C31_missing_refuted), names with
   slashes (C31_collision_refuted), lists of schemas in items (C31_items_refuted). *)
Theorem C31_table_partial : forall E fuel parsing rootId n r s' d, parseDoc E fuel parsing rootId n = Ok (r, s') ->
  treeDocument d n -> Z.of_nat d <= pxMaxDepth E ->
  parsing = rootId \/ (forall from, pxFetch E from (refDoc parsing) = None) ->
  agrees E (pErrs s') (pRefs s') parsing n [] (match r with Good g => g | Bad _ => GNull end) /\
  forall k c, (down n (Named "$defs" k) = Some c -> exists g, agrees E (pErrs s') (pRefs s') parsing n [Named "$defs" k] g) /\
              (down n (Named "definitions" k) = Some c -> exists g, agrees E (pErrs s') (pRefs s') parsing n [Named "definitions" k] g).
Proof.
  intros E fuel parsing rootId n r s' d H HT HD HO. unfold parseDoc in H.
  apply pbind_ok in H. destruct H as (r0 & s & H1 & H). apply pbind_ok in H. destruct H as ([] & s2 & H2 & H). apply pret_ok in H. destruct H as [-> ->].
  pose proof (kInv _ _ _ (st_parseRoot E _ _ _ _ _ H1) _ (initP_inv E parsing rootId n)) as I.
  apply drain_rounds in H2. destruct H2 as [l H2].
  assert (NI : ~ In (parsing, true) l).
  { destruct HO as [->|HO]; [|eapply rounds_unfetched; eauto]. intros X.
    eapply (rounds_settled E fuel rootId _ _ _ H2 I rootId); [|apply in_map_iff; exists (rootId, true); auto].
    destruct I. split; [exact iRootDone|]. left. destruct (assoc rootId (pDocs s)); [eauto|congruence]. }
  pose proof (rounds_refs E fuel _ _ _ H2 parsing NI) as HR.
  pose proof (rounds_errs E fuel _ _ _ H2) as HE.
  assert (MM : forall k m q h, madeFrom E (pErrs s) k m parsing q h -> madeFrom E (pErrs s2) k m parsing q h).
  { intros k m q h (fu & x & y & z & B1 & B2 & B3 & B4 & B5 & B6 & B7 & B8 & B9). exists fu, x, y, z. repeat (split; [assumption|]). eapply incl_tran; eauto. }
  assert (AG : forall start g, agrees E (pErrs s) (pRefs s) parsing n start g -> agrees E (pErrs s2) (pRefs s2) parsing n start g).
  { intros start g A p h P. destruct (A p h P) as (m & X & Y & Z0). exists m. split; [exact X|]. split; [|apply MM; exact Z0]. unfold target in *. rewrite HR. exact Y. }
  destruct (RefTree.root_tree E parsing "" (or_introl eq_refl) d fuel n _ _ _ HT H1 eq_refl eq_refl eq_refl eq_refl HD) as [A B].
  split; [apply AG; exact A|]. intros k c. split; intros X; destruct (B _ _ X) as [g Ag]; auto; exists g; auto.
Qed.
Print Assumptions C31_table_partial.

(* The same for every document that is fetched and parsed on the way. *)
Theorem C31_external_partial : forall E fuel parsing rootId n r s t id rest m t0 t1 l s' d,
  parseRoot E fuel n (initP E parsing rootId n) = Ok (r, s) -> someRounds E fuel s t ->
  pQueue t = id :: rest -> resolveDocument E id (withQueue rest (withParsing id (withResolving id t))) = Ok (Good m, t0) ->
  parseNext E fuel id rest t = Ok (tt, t1) -> rounds E fuel t1 l s' ->
  treeDocument d m -> Z.of_nat d <= pxMaxDepth E ->
  (exists g, agrees E (pErrs s') (pRefs s') id m [] g) /\
  forall k c, (down m (Named "$defs" k) = Some c -> exists g, agrees E (pErrs s') (pRefs s') id m [Named "$defs" k] g) /\
              (down m (Named "definitions" k) = Some c -> exists g, agrees E (pErrs s') (pRefs s') id m [Named "definitions" k] g).
Proof.
  intros E fuel parsing rootId n r s t id rest m t0 t1 l s' d H H1 Hq Ha Hn Hr HT HD.
  apply (st_parseRoot E) in H. pose proof (kInv _ _ _ H _ (initP_inv E parsing rootId n)) as I.
  assert (P : pPath s = "#" /\ pDepth s = 0) by (destruct H; auto).
  destruct (some_rounds E fuel _ _ H1 rootId I) as (It & Pt & Dt). destruct P as [P D].
  destruct (parseNext_keeps E fuel rootId id rest t tt t1 It Hq Hn) as (I1 & (a & s0 & Ha' & Hs) & _).
  assert (a = Good m) by (unfold taken in Ha'; congruence). subst a.
  assert (NI : ~ In (id, true) l).
  { intros X. eapply (rounds_settled E fuel rootId _ _ _ Hr I1 id); [exact Hs|]. apply in_map_iff. exists (id, true). auto. }
  pose proof (rounds_refs E fuel _ _ _ Hr id NI) as HR.
  destruct (next_refs E fuel _ _ _ _ Hn) as (a & s0' & Ha2 & _ & _ & X & _). assert (a = Good m) by congruence. subst a.
  destruct X as (z & r1 & z' & X1 & X2 & X3 & X4 & X5 & X6 & _ & X7).
  destruct (RefTree.root_tree E id id (or_intror eq_refl) d fuel m _ _ _ HT X1 X2 X3 ltac:(congruence) ltac:(congruence) HD) as [A B].
  pose proof (rounds_errs E fuel _ _ _ Hr) as HE.
  assert (MM : forall k m q h, madeFrom E (pErrs z') k m id q h -> madeFrom E (pErrs s') k m id q h).
  { intros k k' q h (fu & x & y & w & B1 & B2 & B3 & B4 & B5 & B6 & B7 & B8 & B9). exists fu, x, y, w. repeat (split; [assumption|]). eapply incl_tran; [exact B9|]. eapply incl_tran; eauto. }
  assert (AG : forall start g, agrees E (pErrs z') (pRefs z') id m start g -> agrees E (pErrs s') (pRefs s') id m start g).
  { intros start g AA p h Q. destruct (AA p h Q) as (k & Y1 & Y2 & Y3). exists k. split; [exact Y1|]. split; [|apply MM; exact Y3]. unfold target in *. rewrite HR, X6. exact Y2. }
  split; [exists (orNull r1); apply AG; exact A|]. intros k c. split; intros Y; destruct (B _ _ Y) as [g Ag]; auto; exists g; auto.
Qed.
Print Assumptions C31_external_partial.

Lemma matchRef_local : forall q, hasChar "010" q = false -> matchRef (String "#" q) = Some ("", String "#" q).
Proof. intros q H. unfold matchRef. cbn [splitHash]. change (Ascii.eqb "#" "#") with true. cbn iota. cbn [hasChar]. rewrite H. reflexivity. Qed.
(* A reference "#..." of the document is the reference to that path of the document it stands in, unless it
   is refused: if it leads into allOf, or stands beside dependentRequired or dependentSchemas. *)
Theorem C31_local : forall E errs depth m doc path h q, madeFrom E errs depth m doc path h -> sRef m = Some ("#" ++ q) -> sConstraints m = None ->
  ~ In "010"%char (list_ascii_of_string q) ->
  h = GRef doc ("#" ++ q) \/
  (h = GNull /\ (sDependentRequired m <> [] \/ sDependentSchemas m <> [] \/ exists a b, "#" ++ q = a ++ "/allOf/" ++ b)).
Proof.
  intros E errs depth m doc path h q (fuel & s & r & s' & H & HP & HS & _ & Hk & HD & -> & _) HR HC HN. apply parseNode_inv in H.
  destruct H as (f & _ & [(_ & X)|(_ & f' & s1 & r0 & s2 & _ & _ & _ & S1 & _ & _ & H & Hr)]); [lia|]. rewrite HC in Hr. subst r0.
  unfold stepF, schemaStep in H. destruct (unsupported m) eqn:EU.
  { unfold bad in H. apply pret_ok in H. destruct H as [-> _]. right. split; [reflexivity|].
    unfold unsupported in EU. destruct (sDependentRequired m); [|left; discriminate]. destruct (sDependentSchemas m); [discriminate|]. right. left. discriminate. }
  rewrite HR in H. unfold parseReference in H. destruct (containsStr "/allOf/" ("#" ++ q)) eqn:EC.
  { unfold bad in H. apply pret_ok in H. destruct H as [-> _]. right. split; [reflexivity|]. right. right.
    assert (PX : forall a b, String.prefix a b = true -> exists t, b = a ++ t).
    { induction a as [|x a IH]; intros b X; [exists b; reflexivity|]. destruct b as [|y b]; [discriminate|]. cbn in X. destruct (ascii_dec x y); [|discriminate].
      subst y. destruct (IH b X) as [t ->]. exists t. reflexivity. }
    revert EC. generalize ("#" ++ q). induction s0 as [|x s0 IH]; intros EC.
    - cbn in EC. discriminate.
    - cbn [containsStr] in EC. apply orb_true_iff in EC. destruct EC as [EC|EC].
      + apply PX in EC. destruct EC as [t ->]. exists "", t. reflexivity.
      + destruct (IH EC) as (a & b & ->). exists (String x a), b. reflexivity. }
  assert (HQ : hasChar "010" q = false).
  { clear - HN. induction q as [|c q IH]; [reflexivity|]. cbn [hasChar list_ascii_of_string] in *.
    destruct (Ascii.eqb_spec c "010"); [exfalso; apply HN; left; assumption|]. apply IH. intros X. apply HN. right. exact X. }
  apply pbind_ok in H. destruct H as (x & s3 & H3 & H). unfold deferredRef in H3. unfold refDoc, refPath in H3.
  change ("#" ++ q) with (String "#" q) in *. rewrite (matchRef_local q HQ) in H3. cbn [String.eqb] in H3.
  injection H3 as <- <-. unfold good in H. apply pret_ok in H. destruct H as [-> _]. left. rewrite S1, HS. reflexivity.
Qed.
Print Assumptions C31_local.

(* Together: in such a document, where the schema at p is the reference "#q" and q leads to a part k of the
   generator, the generator has the reference to q at p, and that reference stands for exactly k. *)
Theorem C31_resolves_partial : forall E fuel parsing rootId n g s' d p m q h k, parseDoc E fuel parsing rootId n = Ok (Good g, s') ->
  treeDocument d n -> Z.of_nat d <= pxMaxDepth E ->
  parsing = rootId \/ (forall from, pxFetch E from (refDoc parsing) = None) ->
  addressed n p = Some m -> sRef m = Some ("#" ++ pointer q) -> partAt g p h -> partAt g q k ->
  sConstraints m = None -> sDependentRequired m = [] -> sDependentSchemas m = [] ->
  ~ In "010"%char (list_ascii_of_string (pointer q)) -> (forall a b, "#" ++ pointer q <> a ++ "/allOf/" ++ b) ->
  h = GRef parsing ("#" ++ pointer q) /\ target (pRefs s') parsing ("#" ++ pointer q) = Some k.
Proof.
  intros E fuel parsing rootId n g s' d p m q h k H HT HD HO HA HR Hp Hq HC H1 H2 HN HL.
  destruct (C31_table_partial _ _ _ _ _ _ _ _ H HT HD HO) as [A _].
  destruct (A p h Hp) as (m' & X & _ & M). cbn [app] in X. rewrite HA in X. injection X as <-.
  destruct (A q k Hq) as (_ & _ & T & _). split; [|exact T].
  destruct (C31_local _ _ _ _ _ _ _ _ M HR HC HN) as [Y|(_ & Y)]; [exact Y|]. exfalso. destruct Y as [Y|[Y|(a & b & Y)]]; [congruence|congruence|exact (HL a b Y)].
Qed.
Print Assumptions C31_resolves_partial.

Definition typed (t : string) : schemaNode := set_sType (Some (mkMT t None)) emptyNode.
Definition refTo (r : string) : schemaNode := set_sRef (Some r) emptyNode.
(* {"properties": {"a": {"prefixItems": [boolean, string]}, "r": {"$ref": "#/properties/a/prefixItems/1"}},
    "$defs": {"x": {"items": {"type": "boolean"}}}} *)
Definition refDocument : schemaNode :=
  set_sDefs (Some [("x", set_sItems (Some (mkItems (Some (typed "boolean")) None false)) emptyNode)])
    (set_sProperties (Some [("a", set_sPrefixItems (Some [typed "boolean"; typed "string"]) emptyNode); ("r", refTo "#/properties/a/prefixItems/1")]) emptyNode).

Lemma leaf_tree : forall t, tree 1 (typed t).
Proof.
  intros t. split; [reflexivity|]. split; [reflexivity|]. right. repeat (split; [reflexivity|]).
  split; [apply RefTree.clear_none|]. split; [apply RefTree.clear_none|].
  split; [intros x ts X Y; injection X as <-; discriminate|]. split; [discriminate|]. split; [discriminate|].
  intros st c X. apply RefTree.down_sub in X. destruct X.
Qed.
Lemma ref_tree : forall r, tree 1 (refTo r).
Proof. intros r. split; [reflexivity|]. split; [reflexivity|]. left. discriminate. Qed.
Lemma deeper : forall d n, tree d n -> tree (S d) n.
Proof.
  induction d as [|d IH]; intros n H; [destruct H|]. destruct H as (A & B & C). split; [exact A|]. split; [exact B|]. destruct C as [C|C]; [left; exact C|right].
  destruct C as (C1 & C2 & C3 & C4 & C5 & C6 & C7 & C8 & C9 & C10 & C11 & C12 & C13). repeat (split; [assumption|]). intros st c X. apply IH. eauto.
Qed.
Lemma refDocument_tree : treeDocument 3 refDocument.
Proof.
  assert (NS : forall k, In k ["a"; "r"] -> ~ In "/"%char (list_ascii_of_string k)) by (intros k [<-|[<-|[]]]; cbn; intuition discriminate).
  assert (T2 : tree 2 (set_sPrefixItems (Some [typed "boolean"; typed "string"]) emptyNode)).
  { split; [reflexivity|]. split; [reflexivity|]. right. repeat (split; [reflexivity|]).
    split; [apply RefTree.clear_none|]. split; [apply RefTree.clear_none|]. split; [discriminate|]. split; [discriminate|]. split; [discriminate|].
    intros st c X. apply RefTree.down_sub in X. destruct X as [<-|[<-|[]]]; apply leaf_tree. }
  assert (T1 : tree 2 (set_sItems (Some (mkItems (Some (typed "boolean")) None false)) emptyNode)).
  { split; [reflexivity|]. split; [reflexivity|]. right. repeat (split; [reflexivity|]).
    split; [apply RefTree.clear_none|]. split; [apply RefTree.clear_none|]. split; [discriminate|].
    split; [intros it X; injection X as <-; split; [reflexivity|intros Y; destruct (Y eq_refl)]|]. split; [discriminate|].
    intros st c X. apply RefTree.down_sub in X. destruct X as [<-|[]]; apply leaf_tree. }
  split; [|split; [|split]].
  - split; [reflexivity|]. split; [reflexivity|]. right. repeat (split; [reflexivity|]).
    split; [split; [|exact NS]|]. { constructor; [cbn; intuition discriminate|]. constructor; [intros []|]. constructor. }
    split; [apply RefTree.clear_none|]. split; [discriminate|]. split; [discriminate|]. split; [discriminate|].
    intros st c X. apply RefTree.down_sub in X. destruct X as [<-|[<-|[<-|[]]]]; [exact T2|apply deeper, ref_tree|exact T1].
  - split; [constructor; [intros []|constructor]|]. intros k [<-|[]]. cbn. intuition discriminate.
  - apply RefTree.clear_none.
  - intros k c [X|X]; [|discriminate]. cbn in X. destruct (String.eqb k "x"); [|discriminate]. injection X as <-. apply deeper. exact T1.
Qed.
Example C31_table_case : treeDocument 3 refDocument /\ Z.of_nat 3 <= pxMaxDepth demoPE /\
  addressed refDocument [Named "properties" "r"] = Some (refTo ("#" ++ pointer [Named "properties" "a"; Nth "prefixItems" 1])) /\
  match parseDoc demoPE 20 loopDoc loopDoc refDocument with
  | Ok (Good g, s') =>
      partAt g [Named "properties" "r"] (GRef loopDoc "#/properties/a/prefixItems/1") /\
      partAt g [Named "properties" "a"; Nth "prefixItems" 1] (GString "" "" 0 0) /\
      target (pRefs s') loopDoc "#/properties/a/prefixItems/1" = Some (GString "" "" 0 0) /\
      target (pRefs s') loopDoc "#/$defs/x/items" = Some GBool
  | _ => False
  end.
Proof.
  split; [exact refDocument_tree|]. split; [vm_compute; discriminate|]. split; [reflexivity|]. vm_compute.
  split; [|split; [|split; reflexivity]].
  - eapply part_further; [apply part_property; right; left; reflexivity|apply part_here].
  - eapply part_further; [apply part_property; left; reflexivity|]. eapply part_further; [apply part_prefix; reflexivity|apply part_here].
Qed.

(* {"properties": {"a": {"items": [string]}, "r": {"$ref": "#/properties/a/items/0"}}}: the list of schemas
   is registered as prefixItems, the reference finds nothing, and no error is recorded *)
Theorem C31_items_refuted : exists fuel,
  match parseDoc demoPE fuel loopDoc loopDoc
    (set_sProperties (Some [("a", set_sType (Some (mkMT "array" None)) (set_sItems (Some (mkItems None (Some [typed "string"]) false)) emptyNode));
                            ("r", refTo "#/properties/a/items/0")]) emptyNode) with
  | Ok (Good (GObject [(_, GArray [GString _ _ _ _] _ _ _ _ _); ("r", GRef d p)] _ _ _), s') =>
      p = "#/properties/a/items/0" /\ target (pRefs s') d p = None /\ target (pRefs s') d "#/properties/a/prefixItems/0" <> None /\ pErrs s' = []
  | _ => False
  end.
Proof. exists 20%nat. vm_compute. split; [reflexivity|]. split; [reflexivity|]. split; [discriminate|reflexivity]. Qed.
Print Assumptions C31_items_refuted.

(* {"$defs": {"x": boolean}, "allOf": [{"$ref": "https://good.example/s.json#"}],
    "properties": {"a": {"allOf": [{"$ref": "#/$defs/x"}]}, "b": {"$ref": "#/$defs/x"}}}:
   "b" becomes a reference into good.example's document, where there is nothing; nothing is recorded.
   Without the allOf in "a" it is the document's own definition. *)
Definition scopeDoc (a : schemaNode) : schemaNode :=
  set_sDefs (Some [("x", typed "boolean")])
   (set_sAllOf (Some [refTo "https://good.example/s.json#"])
    (set_sProperties (Some [("a", a); ("b", refTo "#/$defs/x")]) emptyNode)).
Definition scopeW := P_Fetch.demoW "/w" (fun u => if String.eqb u "https://good.example/s.json" then Some (set_sMinProperties (Some 1) emptyNode) else None) (fun _ => None).
Definition parseScope (a : schemaNode) :=
  parseDoc (withFetchers scopeW P_Fetch.openHttp P_Fetch.noFile [] demoPE) 40 "https://bad.example/s.json" "https://bad.example/s.json" (scopeDoc a).
Theorem C31_scope_refuted :
  match parseScope (set_sAllOf (Some [refTo "#/$defs/x"]) emptyNode) with
  | Ok (Good (GAllOf (GObject [_; ("b", GRef d p)] _ _ _)), s') =>
      d = "https://good.example/s.json" /\ p = "#/$defs/x" /\ target (pRefs s') d p = None /\ pErrs s' = []
  | _ => False
  end /\
  match parseScope (typed "boolean") with
  | Ok (Good (GAllOf (GObject [_; ("b", GRef d p)] _ _ _)), s') =>
      d = "https://bad.example/s.json" /\ p = "#/$defs/x" /\ target (pRefs s') d p = Some GBool
  | _ => False
  end.
Proof. split; vm_compute; auto. Qed.
Print Assumptions C31_scope_refuted.
