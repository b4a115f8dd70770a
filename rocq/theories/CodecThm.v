(* The round trip of C43, field by field.  Generated by tools/mkcodecthm.py. *)
From Coq Require Import ZArith List String Bool Lia.
From Verif Require Import Base Float64 Json Schema NodeFacts Codec CodecFacts.
Import ListNotations.
Open Scope string_scope.
Open Scope Z_scope.

Definition tbl (n : schemaNode) : list (string * option json) :=
  [("type", omap encType (sType n));
   ("length", omap JInt (sLength n));
   ("properties", omap (encKV encodeNode) (sProperties n));
   ("additionalProperties", omap (encNof encodeNode) (sAdditionalProperties n));
   ("patternProperties", omap (encKV encodeNode) (sPatternProperties n));
   ("minProperties", omap JInt (sMinProperties n));
   ("maxProperties", omap JInt (sMaxProperties n));
   ("required", omap (fun l => JArr (map JStr l)) (sRequired n));
   ("pattern", omap JStr (sPattern n));
   ("format", omap JStr (sFormat n));
   ("minLength", omap JInt (sMinLength n));
   ("maxLength", omap JInt (sMaxLength n));
   ("minimum", omap encFloat (sMinimum n));
   ("maximum", omap encFloat (sMaximum n));
   ("exclusiveMinimum", omap encFloat (sExclusiveMinimum n));
   ("exclusiveMaximum", omap encFloat (sExclusiveMaximum n));
   ("multipleOf", omap encFloat (sMultipleOf n));
   ("items", omap (encItems encodeNode) (sItems n));
   ("minItems", omap JInt (sMinItems n));
   ("maxItems", omap JInt (sMaxItems n));
   ("contains", omap encodeNode (sContains n));
   ("minContains", omap JInt (sMinContains n));
   ("maxContains", omap JInt (sMaxContains n));
   ("prefixItems", omap (encList encodeNode) (sPrefixItems n));
   ("additionalItems", omap (encNof encodeNode) (sAdditionalItems n));
   ("unevaluatedItems", omap (encNof encodeNode) (sUnevaluatedItems n));
   ("uniqueItems", omap JBool (sUniqueItems n));
   ("enum", omap (fun l => JArr (map encAny l)) (sEnum n));
   ("const", omap encAny (sConst n));
   ("not", omap encodeNode (sNot n));
   ("allOf", omap (encList encodeNode) (sAllOf n));
   ("anyOf", omap (encList encodeNode) (sAnyOf n));
   ("oneOf", omap (encList encodeNode) (sOneOf n));
   ("$ref", omap JStr (sRef n));
   ("$id", omap JStr (sId n));
   ("$defs", omap (encKV encodeNode) (sDefs n));
   ("definitions", omap (encKV encodeNode) (sDefinitions n));
   ("if", omap encodeNode (sIf n));
   ("then", omap encodeNode (sThen n));
   ("else", omap encodeNode (sElse n));
   ("dependentRequired", onil encStrsMap (sDependentRequired n));
   ("dependentSchemas", onil (encKV encodeNode) (sDependentSchemas n))].

Lemma encodeNode_eq : forall n, encodeNode n = JObj (members (tbl n)).
Proof.
  intros n. unfold members, tbl. cbn [flat_map fst snd]. rewrite app_nil_r. destruct n; reflexivity.
Qed.

Fixpoint nodups (l : list string) : bool := match l with [] => true | x :: r => negb (mem_string x r) && nodups r end.
Lemma nodups_NoDup : forall l, nodups l = true -> NoDup l.
Proof.
  induction l; simpl; intros H; [apply NoDup_nil|]. apply andb_prop in H as [H1 H2]. apply NoDup_cons; auto.
  intros Hin. rewrite (proj2 (mem_string_In a l) Hin) in H1. discriminate.
Qed.

Lemma tbl_keys : forall n, NoDup (map fst (tbl n)).
Proof.
  intros n. unfold tbl. cbn [map fst].
  apply nodups_NoDup. vm_compute. reflexivity.
Qed.

Lemma rd_tbl : forall n k, assoc k (decMembers (members (tbl n))) =
  match assoc k (tbl n) with Some (Some v) => Some (decField decodeNode k v) | _ => None end.
Proof. intros. rewrite assoc_decMembers, assoc_members by apply tbl_keys. destruct (assoc k (tbl n)) as [[v|]|]; reflexivity. Qed.

Section Readers.
  Variable fs : list (string * dval).
  Variable k : string.
  Definition reads (o : option json) : Prop := assoc k fs = omap (decField decodeNode k) o.

  Lemma fRaw_rt : forall A (enc : A -> json) dec (o : option A), kindOf k = KRaw -> reads (omap enc o) ->
    (forall a, o = Some a -> enc a <> JNull /\ dec (enc a) = Some a) -> fRaw dec fs k = Some o.
  Proof.
    intros A enc dec o K R H. unfold reads in R. unfold fRaw. rewrite R. destruct o as [a|]; simpl; auto.
    destruct (H a eq_refl) as [H1 H2]. unfold decField. rewrite K. destruct (enc a) eqn:E; try congruence; rewrite H2; auto.
  Qed.

  Lemma fConst_rt : forall o, kindOf k = KRaw -> reads (omap encAny o) ->
    (forall a, o = Some a -> plainAny a) -> fConst fs k = Some o.
  Proof.
    intros o K R H. unfold reads in R. unfold fConst. rewrite R. destruct o as [a|]; simpl; auto.
    unfold decField. rewrite K. pose proof (decAny_enc a (H a eq_refl)) as D.
    destruct (encAny a) eqn:E; try (simpl in D; congruence); rewrite D; reflexivity.
  Qed.

  Lemma fNode_rt : forall o, kindOf k = KNode -> reads (omap encodeNode o) ->
    (forall a, o = Some a -> decodeNode (encodeNode a) = Some a) -> fNode fs k = Some o.
  Proof.
    intros o K R H. unfold reads in R. unfold fNode. rewrite R. destruct o as [a|]; simpl; auto.
    unfold decField. rewrite K. rewrite encodeNode_eq in *. rewrite <- encodeNode_eq, (H a eq_refl). reflexivity.
  Qed.

  Lemma fMap_rt : forall o, kindOf k = KMap -> reads (omap (encKV encodeNode) o) ->
    (forall l c, o = Some l -> In c (map snd l) -> decodeNode (encodeNode c) = Some c) -> fMap fs k = Some o.
  Proof.
    intros o K R H. unfold reads in R. unfold fMap. rewrite R. destruct o as [a|]; simpl; auto.
    unfold decField. rewrite K. unfold encKV. rewrite allSomeKV_map; auto. intros; eapply H; eauto.
  Qed.

  Lemma fList_rt : forall o, kindOf k = KList -> reads (omap (encList encodeNode) o) ->
    (forall l c, o = Some l -> In c l -> decodeNode (encodeNode c) = Some c) -> fList fs k = Some o.
  Proof.
    intros o K R H. unfold reads in R. unfold fList. rewrite R. destruct o as [a|]; simpl; auto.
    unfold decField. rewrite K. unfold encList. rewrite allSome_map; auto. intros; eapply H; eauto.
  Qed.

  Definition itemsShape (d : itemsData schemaNode) : Prop :=
    d = mkItems None None true \/ exists n, d = mkItems (Some n) (Some []) false.
  Lemma fItems_rt : forall o, kindOf k = KItems -> reads (omap (encItems encodeNode) o) ->
    (forall d, o = Some d -> itemsShape d /\ (forall c, itNode d = Some c -> decodeNode (encodeNode c) = Some c)) -> fItems fs k = Some o.
  Proof.
    intros o K R H. unfold reads in R. unfold fItems. rewrite R. destruct o as [a|]; simpl; auto.
    destruct (H a eq_refl) as [[->|[n ->]] H2].
    - unfold decField. rewrite K. reflexivity.
    - unfold decField. rewrite K. unfold encItems. cbn [itDisallow itNode]. rewrite encodeNode_eq. rewrite <- encodeNode_eq, (H2 n eq_refl). reflexivity.
  Qed.

  Definition nofShape (d : nodeOrFalse schemaNode) : Prop :=
    d = mkNOF None true \/ exists n, d = mkNOF (Some n) false.
  Lemma fNof_rt : forall o, kindOf k = KNof -> reads (omap (encNof encodeNode) o) ->
    (forall d, o = Some d -> nofShape d /\ (forall c, nofSchema d = Some c -> decodeNode (encodeNode c) = Some c)) -> fNof fs k = Some o.
  Proof.
    intros o K R H. unfold reads in R. unfold fNof. rewrite R. destruct o as [a|]; simpl; auto.
    destruct (H a eq_refl) as [[->|[n ->]] H2].
    - unfold decField. rewrite K. reflexivity.
    - unfold decField. rewrite K. unfold encNof. cbn [nofFalse nofSchema]. rewrite encodeNode_eq. rewrite <- encodeNode_eq, (H2 n eq_refl). reflexivity.
  Qed.

  Lemma strsMap_rt : forall l, kindOf k = KRaw -> reads (onil encStrsMap l) -> orNil (fRaw decStrsMap fs k) = Some l.
  Proof.
    intros l K R. unfold reads in R. unfold fRaw. rewrite R. destruct l as [|p l]; auto.
    cbn [onil omap]. unfold decField. rewrite K. unfold encStrsMap. cbn [decStrsMap].
    rewrite allSomeKV_map; auto. intros. unfold decStrsElem, decStrs. rewrite allSome_map; auto.
  Qed.

  Lemma barMap_rt : forall l, kindOf k = KMap -> reads (onil (encKV encodeNode) l) ->
    (forall c, In c (map snd l) -> decodeNode (encodeNode c) = Some c) -> orNil (fMap fs k) = Some l.
  Proof.
    intros l K R H. unfold reads in R. unfold fMap. rewrite R. destruct l as [|p l]; auto.
    cbn [onil omap]. unfold decField. rewrite K. unfold encKV. rewrite allSomeKV_map; auto.
  Qed.
End Readers.

Definition inInt (z : Z) : Prop := - 2^63 <= z < 2^63.
Definition typeShape (t : multipleType) : Prop :=
  (mtSingle t <> "" /\ mtMultiple t = None) \/ (mtSingle t = "" /\ exists x r, mtMultiple t = Some (x :: r)).
Definition each {A} (o : option A) (P : A -> Prop) : Prop := forall a, o = Some a -> P a.

Definition intFields (n : schemaNode) : list (option Z) := [sLength n; sMinProperties n; sMaxProperties n; sMinLength n; sMaxLength n; sMinItems n; sMaxItems n; sMinContains n; sMaxContains n].

Definition floatFields (n : schemaNode) : list (option f64) := [sMinimum n; sMaximum n; sExclusiveMinimum n; sExclusiveMaximum n; sMultipleOf n].

Definition nofFields (n : schemaNode) : list (option (nodeOrFalse schemaNode)) := [sAdditionalProperties n; sAdditionalItems n; sUnevaluatedItems n].

(* what a node must look like to survive being written and read *)
Record writable (n : schemaNode) : Prop := mkWritable {
  w_type : each (sType n) typeShape;
  w_ints : forall o, In o (intFields n) -> each o inInt;
  w_floats : forall o, In o (floatFields n) -> each o (fun f => finite f = true);
  w_enum : each (sEnum n) (fun l => forall v, In v l -> plainAny v);
  w_const : each (sConst n) plainAny;
  w_items : each (sItems n) itemsShape;
  w_nofs : forall o, In o (nofFields n) -> each o nofShape;
  w_if : sMergedIf n = [];
  w_not : sMergedNot n = [];
  w_cons : sConstraints n = None
}.

Lemma type_rt : forall t, typeShape t -> encType t <> JNull /\ decType (encType t) = Some t.
Proof.
  intros [s m] [[H1 H2]|[H1 (x & r & H2)]]; unfold encType; simpl in *; subst.
  - apply String.eqb_neq in H1. rewrite H1. simpl. split; [discriminate|reflexivity].
  - simpl. split; [discriminate|]. rewrite (allSome_map decStrElem JStr r) by reflexivity. reflexivity.
Qed.

Theorem encode_decode : forall n, (forall c, within n c -> writable c) -> decodeNode (encodeNode n) = Some n.
Proof.
  induction n as [n IH] using node_ind'; intros W.
  assert (S : forall c, In c (subnodes n) -> decodeNode (encodeNode c) = Some c).
  { intros c Hc. apply IH; auto. intros d Hd. apply W. eapply within_step; eauto. }
  destruct (W n (within_refl n)) as [Wt Wi Wf We Wc Wit Wn W1 W2 W3]. clear W IH.
  rewrite encodeNode_eq, decodeNode_obj. set (fs := decMembers (members (tbl n))).
  assert (R : forall k o, assoc k (tbl n) = Some o -> reads fs k o).
  { intros k o Hk. unfold reads, fs. rewrite rd_tbl, Hk. destruct o; reflexivity. }
  clearbody fs. unfold assemble.
  rewrite (fRaw_rt fs "type" _ encType decType (sType n) eq_refl (R "type" _ eq_refl)); [| intros a Ha; apply type_rt, Wt, Ha].
  rewrite (fRaw_rt fs "length" _ JInt decInt (sLength n) eq_refl (R "length" _ eq_refl)); [| intros a Ha; split; [discriminate | apply decInt_enc, (Wi (sLength n)); [simpl; tauto | exact Ha]]].
  rewrite (fMap_rt fs "properties" (sProperties n) eq_refl (R "properties" _ eq_refl)); [| intros l c Hl Hc; apply S, sub_sProperties; rewrite Hl; exact Hc].
  rewrite (fNof_rt fs "additionalProperties" (sAdditionalProperties n) eq_refl (R "additionalProperties" _ eq_refl)); [| intros d Hd; split; [apply (Wn (sAdditionalProperties n)); [simpl; tauto | exact Hd] | intros c Hc; apply S, sub_sAdditionalProperties; rewrite Hd; cbn [nofs]; rewrite Hc; now left]].
  rewrite (fMap_rt fs "patternProperties" (sPatternProperties n) eq_refl (R "patternProperties" _ eq_refl)); [| intros l c Hl Hc; apply S, sub_sPatternProperties; rewrite Hl; exact Hc].
  rewrite (fRaw_rt fs "minProperties" _ JInt decInt (sMinProperties n) eq_refl (R "minProperties" _ eq_refl)); [| intros a Ha; split; [discriminate | apply decInt_enc, (Wi (sMinProperties n)); [simpl; tauto | exact Ha]]].
  rewrite (fRaw_rt fs "maxProperties" _ JInt decInt (sMaxProperties n) eq_refl (R "maxProperties" _ eq_refl)); [| intros a Ha; split; [discriminate | apply decInt_enc, (Wi (sMaxProperties n)); [simpl; tauto | exact Ha]]].
  rewrite (fRaw_rt fs "required" _ (fun l => JArr (map JStr l)) decStrs (sRequired n) eq_refl (R "required" _ eq_refl)); [| intros a Ha; split; [discriminate | apply allSome_map; reflexivity]].
  rewrite (fRaw_rt fs "pattern" _ JStr decStr (sPattern n) eq_refl (R "pattern" _ eq_refl)); [| intros a Ha; split; [discriminate | reflexivity]].
  rewrite (fRaw_rt fs "format" _ JStr decStr (sFormat n) eq_refl (R "format" _ eq_refl)); [| intros a Ha; split; [discriminate | reflexivity]].
  rewrite (fRaw_rt fs "minLength" _ JInt decInt (sMinLength n) eq_refl (R "minLength" _ eq_refl)); [| intros a Ha; split; [discriminate | apply decInt_enc, (Wi (sMinLength n)); [simpl; tauto | exact Ha]]].
  rewrite (fRaw_rt fs "maxLength" _ JInt decInt (sMaxLength n) eq_refl (R "maxLength" _ eq_refl)); [| intros a Ha; split; [discriminate | apply decInt_enc, (Wi (sMaxLength n)); [simpl; tauto | exact Ha]]].
  rewrite (fRaw_rt fs "minimum" _ encFloat decFloat (sMinimum n) eq_refl (R "minimum" _ eq_refl)); [| intros a Ha; split; [apply encFloat_not_null | apply decFloat_enc, (Wf (sMinimum n)); [simpl; tauto | exact Ha]]].
  rewrite (fRaw_rt fs "maximum" _ encFloat decFloat (sMaximum n) eq_refl (R "maximum" _ eq_refl)); [| intros a Ha; split; [apply encFloat_not_null | apply decFloat_enc, (Wf (sMaximum n)); [simpl; tauto | exact Ha]]].
  rewrite (fRaw_rt fs "exclusiveMinimum" _ encFloat decFloat (sExclusiveMinimum n) eq_refl (R "exclusiveMinimum" _ eq_refl)); [| intros a Ha; split; [apply encFloat_not_null | apply decFloat_enc, (Wf (sExclusiveMinimum n)); [simpl; tauto | exact Ha]]].
  rewrite (fRaw_rt fs "exclusiveMaximum" _ encFloat decFloat (sExclusiveMaximum n) eq_refl (R "exclusiveMaximum" _ eq_refl)); [| intros a Ha; split; [apply encFloat_not_null | apply decFloat_enc, (Wf (sExclusiveMaximum n)); [simpl; tauto | exact Ha]]].
  rewrite (fRaw_rt fs "multipleOf" _ encFloat decFloat (sMultipleOf n) eq_refl (R "multipleOf" _ eq_refl)); [| intros a Ha; split; [apply encFloat_not_null | apply decFloat_enc, (Wf (sMultipleOf n)); [simpl; tauto | exact Ha]]].
  rewrite (fItems_rt fs "items" (sItems n) eq_refl (R "items" _ eq_refl)); [| intros d Hd; split; [apply Wit, Hd | intros c Hc; apply S, sub_sItems; rewrite Hd; cbn [itemss]; rewrite Hc; now left]].
  rewrite (fRaw_rt fs "minItems" _ JInt decInt (sMinItems n) eq_refl (R "minItems" _ eq_refl)); [| intros a Ha; split; [discriminate | apply decInt_enc, (Wi (sMinItems n)); [simpl; tauto | exact Ha]]].
  rewrite (fRaw_rt fs "maxItems" _ JInt decInt (sMaxItems n) eq_refl (R "maxItems" _ eq_refl)); [| intros a Ha; split; [discriminate | apply decInt_enc, (Wi (sMaxItems n)); [simpl; tauto | exact Ha]]].
  rewrite (fNode_rt fs "contains" (sContains n) eq_refl (R "contains" _ eq_refl)); [| intros a Ha; apply S, sub_sContains; rewrite Ha; now left].
  rewrite (fRaw_rt fs "minContains" _ JInt decInt (sMinContains n) eq_refl (R "minContains" _ eq_refl)); [| intros a Ha; split; [discriminate | apply decInt_enc, (Wi (sMinContains n)); [simpl; tauto | exact Ha]]].
  rewrite (fRaw_rt fs "maxContains" _ JInt decInt (sMaxContains n) eq_refl (R "maxContains" _ eq_refl)); [| intros a Ha; split; [discriminate | apply decInt_enc, (Wi (sMaxContains n)); [simpl; tauto | exact Ha]]].
  rewrite (fList_rt fs "prefixItems" (sPrefixItems n) eq_refl (R "prefixItems" _ eq_refl)); [| intros l c Hl Hc; apply S, sub_sPrefixItems; rewrite Hl; exact Hc].
  rewrite (fNof_rt fs "additionalItems" (sAdditionalItems n) eq_refl (R "additionalItems" _ eq_refl)); [| intros d Hd; split; [apply (Wn (sAdditionalItems n)); [simpl; tauto | exact Hd] | intros c Hc; apply S, sub_sAdditionalItems; rewrite Hd; cbn [nofs]; rewrite Hc; now left]].
  rewrite (fNof_rt fs "unevaluatedItems" (sUnevaluatedItems n) eq_refl (R "unevaluatedItems" _ eq_refl)); [| intros d Hd; split; [apply (Wn (sUnevaluatedItems n)); [simpl; tauto | exact Hd] | intros c Hc; apply S, sub_sUnevaluatedItems; rewrite Hd; cbn [nofs]; rewrite Hc; now left]].
  rewrite (fRaw_rt fs "uniqueItems" _ JBool decBool (sUniqueItems n) eq_refl (R "uniqueItems" _ eq_refl)); [| intros a Ha; split; [discriminate | reflexivity]].
  rewrite (fRaw_rt fs "enum" _ (fun l => JArr (map encAny l)) decAnys (sEnum n) eq_refl (R "enum" _ eq_refl)); [| intros a Ha; split; [discriminate | apply allSome_map; intros b Hb; apply decAny_enc, (We a Ha b Hb)]].
  rewrite (fConst_rt fs "const" (sConst n) eq_refl (R "const" _ eq_refl) Wc).
  rewrite (fNode_rt fs "not" (sNot n) eq_refl (R "not" _ eq_refl)); [| intros a Ha; apply S, sub_sNot; rewrite Ha; now left].
  rewrite (fList_rt fs "allOf" (sAllOf n) eq_refl (R "allOf" _ eq_refl)); [| intros l c Hl Hc; apply S, sub_sAllOf; rewrite Hl; exact Hc].
  rewrite (fList_rt fs "anyOf" (sAnyOf n) eq_refl (R "anyOf" _ eq_refl)); [| intros l c Hl Hc; apply S, sub_sAnyOf; rewrite Hl; exact Hc].
  rewrite (fList_rt fs "oneOf" (sOneOf n) eq_refl (R "oneOf" _ eq_refl)); [| intros l c Hl Hc; apply S, sub_sOneOf; rewrite Hl; exact Hc].
  rewrite (fRaw_rt fs "$ref" _ JStr decStr (sRef n) eq_refl (R "$ref" _ eq_refl)); [| intros a Ha; split; [discriminate | reflexivity]].
  rewrite (fRaw_rt fs "$id" _ JStr decStr (sId n) eq_refl (R "$id" _ eq_refl)); [| intros a Ha; split; [discriminate | reflexivity]].
  rewrite (fMap_rt fs "$defs" (sDefs n) eq_refl (R "$defs" _ eq_refl)); [| intros l c Hl Hc; apply S, sub_sDefs; rewrite Hl; exact Hc].
  rewrite (fMap_rt fs "definitions" (sDefinitions n) eq_refl (R "definitions" _ eq_refl)); [| intros l c Hl Hc; apply S, sub_sDefinitions; rewrite Hl; exact Hc].
  rewrite (fNode_rt fs "if" (sIf n) eq_refl (R "if" _ eq_refl)); [| intros a Ha; apply S, sub_sIf; rewrite Ha; now left].
  rewrite (fNode_rt fs "then" (sThen n) eq_refl (R "then" _ eq_refl)); [| intros a Ha; apply S, sub_sThen; rewrite Ha; now left].
  rewrite (fNode_rt fs "else" (sElse n) eq_refl (R "else" _ eq_refl)); [| intros a Ha; apply S, sub_sElse; rewrite Ha; now left].
  rewrite (strsMap_rt fs "dependentRequired" (sDependentRequired n) eq_refl (R "dependentRequired" _ eq_refl)).
  rewrite (barMap_rt fs "dependentSchemas" (sDependentSchemas n) eq_refl (R "dependentSchemas" _ eq_refl)); [| intros c Hc; apply S, sub_sDependentSchemas; exact Hc].
  rewrite <- W1, <- W2, <- W3. destruct n; reflexivity.
Qed.

(* what decoding guarantees about one node *)
Record decoded (n : schemaNode) : Prop := mkDecoded {
  d_type : each (sType n) (fun t => mtMultiple t = None \/ (mtSingle t = "" /\ mtMultiple t <> None));
  d_ints : forall o, In o (intFields n) -> each o inInt;
  d_floats : forall o, In o (floatFields n) -> each o (fun f => finite f = true);
  d_enum : each (sEnum n) (fun l => forall v, In v l -> plainAny v);
  d_const : each (sConst n) plainAny;
  d_items : each (sItems n) (fun d => d = mkItems None None true \/ (exists a, d = mkItems (Some a) (Some []) false) \/ exists l, d = mkItems (Some emptyNode) (Some l) false);
  d_nofs : forall o, In o (nofFields n) -> each o (fun d => d = mkNOF None false \/ nofShape d);
  d_if : sMergedIf n = [];
  d_not : sMergedNot n = [];
  d_cons : sConstraints n = None
}.

Lemma emptyNode_decoded : decoded emptyNode.
Proof.
  constructor; unfold each; simpl; intros; try discriminate; auto;
  repeat match goal with H : _ \/ _ |- _ => destruct H as [<-|H]; [discriminate|] | H : False |- _ => destruct H end.
Qed.

Lemma fRaw_inv : forall A (dec : json -> option A) fs k o, fRaw dec fs k = Some o -> forall a, o = Some a ->
  exists j, assoc k fs = Some (VRaw j) /\ dec j = Some a.
Proof.
  unfold fRaw. intros A dec fs k o H a ->. destruct (assoc k fs) as [[]|]; try discriminate.
  destruct (dec j) eqn:E; inversion H; subst. eauto.
Qed.

Lemma decInt_range : forall j z, decInt j = Some z -> inInt z.
Proof.
  intros j z H. destruct j; try discriminate. unfold decInt in H.
  destruct (- 2^63 <=? z0) eqn:E1; [|discriminate]. destruct (z0 <? 2^63) eqn:E2; [|discriminate]. simpl in H. injection H as <-.
  apply Z.leb_le in E1. apply Z.ltb_lt in E2. unfold inInt. lia.
Qed.

Lemma decFloat_finite : forall j f, decFloat j = Some f -> finite f = true.
Proof.
  intros j f H. destruct j; try discriminate; unfold decFloat in H.
  - destruct (finite (fofZ z)) eqn:E; [injection H as <-; exact E | discriminate].
  - destruct (finite f0) eqn:E; [injection H as <-; exact E | discriminate].
Qed.

Lemma decMembers_field : forall k m x, assoc k (decMembers m) = Some x -> exists v, assoc k m = Some v /\ x = decField decodeNode k v.
Proof. intros k m x H. rewrite assoc_decMembers in H. destruct (assoc k m); inversion H; eauto. Qed.

Lemma decField_items : forall k v d, kindOf k = KItems -> decField decodeNode k v = VItems d ->
  d = mkItems None None true \/ (exists a, d = mkItems (Some a) (Some []) false) \/ exists l, d = mkItems (Some emptyNode) (Some l) false.
Proof.
  intros k v d K H. unfold decField in H. rewrite K in H. destruct v as [|[]| | | |l|m]; try discriminate.
  - injection H as <-; auto.
  - destruct (allSome decodeNode l); inversion H; eauto.
  - destruct (decodeNode (JObj m)); inversion H; eauto.
Qed.

Lemma decField_nof : forall k v d, kindOf k = KNof -> decField decodeNode k v = VNof d -> d = mkNOF None false \/ nofShape d.
Proof.
  intros k v d K H. unfold decField in H. rewrite K in H. unfold nofShape. destruct v as [|[]| | | |l|m]; try discriminate.
  - injection H as <-; auto.
  - injection H as <-; auto.
  - destruct (decodeNode (JObj m)); inversion H; eauto.
Qed.

Lemma assemble_inv : forall fs n, assemble fs = Some n ->
  fRaw decType fs "type" = Some (sType n) /\
  fRaw decInt fs "length" = Some (sLength n) /\
  fMap fs "properties" = Some (sProperties n) /\
  fNof fs "additionalProperties" = Some (sAdditionalProperties n) /\
  fMap fs "patternProperties" = Some (sPatternProperties n) /\
  fRaw decInt fs "minProperties" = Some (sMinProperties n) /\
  fRaw decInt fs "maxProperties" = Some (sMaxProperties n) /\
  fRaw decStrs fs "required" = Some (sRequired n) /\
  fRaw decStr fs "pattern" = Some (sPattern n) /\
  fRaw decStr fs "format" = Some (sFormat n) /\
  fRaw decInt fs "minLength" = Some (sMinLength n) /\
  fRaw decInt fs "maxLength" = Some (sMaxLength n) /\
  fRaw decFloat fs "minimum" = Some (sMinimum n) /\
  fRaw decFloat fs "maximum" = Some (sMaximum n) /\
  fRaw decFloat fs "exclusiveMinimum" = Some (sExclusiveMinimum n) /\
  fRaw decFloat fs "exclusiveMaximum" = Some (sExclusiveMaximum n) /\
  fRaw decFloat fs "multipleOf" = Some (sMultipleOf n) /\
  fItems fs "items" = Some (sItems n) /\
  fRaw decInt fs "minItems" = Some (sMinItems n) /\
  fRaw decInt fs "maxItems" = Some (sMaxItems n) /\
  fNode fs "contains" = Some (sContains n) /\
  fRaw decInt fs "minContains" = Some (sMinContains n) /\
  fRaw decInt fs "maxContains" = Some (sMaxContains n) /\
  fList fs "prefixItems" = Some (sPrefixItems n) /\
  fNof fs "additionalItems" = Some (sAdditionalItems n) /\
  fNof fs "unevaluatedItems" = Some (sUnevaluatedItems n) /\
  fRaw decBool fs "uniqueItems" = Some (sUniqueItems n) /\
  fRaw decAnys fs "enum" = Some (sEnum n) /\
  fConst fs "const" = Some (sConst n) /\
  fNode fs "not" = Some (sNot n) /\
  fList fs "allOf" = Some (sAllOf n) /\
  fList fs "anyOf" = Some (sAnyOf n) /\
  fList fs "oneOf" = Some (sOneOf n) /\
  fRaw decStr fs "$ref" = Some (sRef n) /\
  fRaw decStr fs "$id" = Some (sId n) /\
  fMap fs "$defs" = Some (sDefs n) /\
  fMap fs "definitions" = Some (sDefinitions n) /\
  fNode fs "if" = Some (sIf n) /\
  fNode fs "then" = Some (sThen n) /\
  fNode fs "else" = Some (sElse n) /\
  orNil (fRaw decStrsMap fs "dependentRequired") = Some (sDependentRequired n) /\
  orNil (fMap fs "dependentSchemas") = Some (sDependentSchemas n) /\
  sMergedIf n = [] /\
  sMergedNot n = [] /\
  sConstraints n = None.
Proof.
  intros fs n H. unfold assemble in H.
  match type of H with match ?m with _ => _ end = _ => destruct m as [x0|] eqn:E0; [|discriminate H] end.
  match type of H with match ?m with _ => _ end = _ => destruct m as [x1|] eqn:E1; [|discriminate H] end.
  match type of H with match ?m with _ => _ end = _ => destruct m as [x2|] eqn:E2; [|discriminate H] end.
  match type of H with match ?m with _ => _ end = _ => destruct m as [x3|] eqn:E3; [|discriminate H] end.
  match type of H with match ?m with _ => _ end = _ => destruct m as [x4|] eqn:E4; [|discriminate H] end.
  match type of H with match ?m with _ => _ end = _ => destruct m as [x5|] eqn:E5; [|discriminate H] end.
  match type of H with match ?m with _ => _ end = _ => destruct m as [x6|] eqn:E6; [|discriminate H] end.
  match type of H with match ?m with _ => _ end = _ => destruct m as [x7|] eqn:E7; [|discriminate H] end.
  match type of H with match ?m with _ => _ end = _ => destruct m as [x8|] eqn:E8; [|discriminate H] end.
  match type of H with match ?m with _ => _ end = _ => destruct m as [x9|] eqn:E9; [|discriminate H] end.
  match type of H with match ?m with _ => _ end = _ => destruct m as [x10|] eqn:E10; [|discriminate H] end.
  match type of H with match ?m with _ => _ end = _ => destruct m as [x11|] eqn:E11; [|discriminate H] end.
  match type of H with match ?m with _ => _ end = _ => destruct m as [x12|] eqn:E12; [|discriminate H] end.
  match type of H with match ?m with _ => _ end = _ => destruct m as [x13|] eqn:E13; [|discriminate H] end.
  match type of H with match ?m with _ => _ end = _ => destruct m as [x14|] eqn:E14; [|discriminate H] end.
  match type of H with match ?m with _ => _ end = _ => destruct m as [x15|] eqn:E15; [|discriminate H] end.
  match type of H with match ?m with _ => _ end = _ => destruct m as [x16|] eqn:E16; [|discriminate H] end.
  match type of H with match ?m with _ => _ end = _ => destruct m as [x17|] eqn:E17; [|discriminate H] end.
  match type of H with match ?m with _ => _ end = _ => destruct m as [x18|] eqn:E18; [|discriminate H] end.
  match type of H with match ?m with _ => _ end = _ => destruct m as [x19|] eqn:E19; [|discriminate H] end.
  match type of H with match ?m with _ => _ end = _ => destruct m as [x20|] eqn:E20; [|discriminate H] end.
  match type of H with match ?m with _ => _ end = _ => destruct m as [x21|] eqn:E21; [|discriminate H] end.
  match type of H with match ?m with _ => _ end = _ => destruct m as [x22|] eqn:E22; [|discriminate H] end.
  match type of H with match ?m with _ => _ end = _ => destruct m as [x23|] eqn:E23; [|discriminate H] end.
  match type of H with match ?m with _ => _ end = _ => destruct m as [x24|] eqn:E24; [|discriminate H] end.
  match type of H with match ?m with _ => _ end = _ => destruct m as [x25|] eqn:E25; [|discriminate H] end.
  match type of H with match ?m with _ => _ end = _ => destruct m as [x26|] eqn:E26; [|discriminate H] end.
  match type of H with match ?m with _ => _ end = _ => destruct m as [x27|] eqn:E27; [|discriminate H] end.
  match type of H with match ?m with _ => _ end = _ => destruct m as [x28|] eqn:E28; [|discriminate H] end.
  match type of H with match ?m with _ => _ end = _ => destruct m as [x29|] eqn:E29; [|discriminate H] end.
  match type of H with match ?m with _ => _ end = _ => destruct m as [x30|] eqn:E30; [|discriminate H] end.
  match type of H with match ?m with _ => _ end = _ => destruct m as [x31|] eqn:E31; [|discriminate H] end.
  match type of H with match ?m with _ => _ end = _ => destruct m as [x32|] eqn:E32; [|discriminate H] end.
  match type of H with match ?m with _ => _ end = _ => destruct m as [x33|] eqn:E33; [|discriminate H] end.
  match type of H with match ?m with _ => _ end = _ => destruct m as [x34|] eqn:E34; [|discriminate H] end.
  match type of H with match ?m with _ => _ end = _ => destruct m as [x35|] eqn:E35; [|discriminate H] end.
  match type of H with match ?m with _ => _ end = _ => destruct m as [x36|] eqn:E36; [|discriminate H] end.
  match type of H with match ?m with _ => _ end = _ => destruct m as [x37|] eqn:E37; [|discriminate H] end.
  match type of H with match ?m with _ => _ end = _ => destruct m as [x38|] eqn:E38; [|discriminate H] end.
  match type of H with match ?m with _ => _ end = _ => destruct m as [x39|] eqn:E39; [|discriminate H] end.
  match type of H with match ?m with _ => _ end = _ => destruct m as [x40|] eqn:E40; [|discriminate H] end.
  match type of H with match ?m with _ => _ end = _ => destruct m as [x41|] eqn:E41; [|discriminate H] end.
  injection H as <-.
  split; [reflexivity|].
  split; [reflexivity|].
  split; [reflexivity|].
  split; [reflexivity|].
  split; [reflexivity|].
  split; [reflexivity|].
  split; [reflexivity|].
  split; [reflexivity|].
  split; [reflexivity|].
  split; [reflexivity|].
  split; [reflexivity|].
  split; [reflexivity|].
  split; [reflexivity|].
  split; [reflexivity|].
  split; [reflexivity|].
  split; [reflexivity|].
  split; [reflexivity|].
  split; [reflexivity|].
  split; [reflexivity|].
  split; [reflexivity|].
  split; [reflexivity|].
  split; [reflexivity|].
  split; [reflexivity|].
  split; [reflexivity|].
  split; [reflexivity|].
  split; [reflexivity|].
  split; [reflexivity|].
  split; [reflexivity|].
  split; [reflexivity|].
  split; [reflexivity|].
  split; [reflexivity|].
  split; [reflexivity|].
  split; [reflexivity|].
  split; [reflexivity|].
  split; [reflexivity|].
  split; [reflexivity|].
  split; [reflexivity|].
  split; [reflexivity|].
  split; [reflexivity|].
  split; [reflexivity|].
  split; [reflexivity|].
  split; [reflexivity|].
  split; [reflexivity|].
  split; [reflexivity|].
  reflexivity.
Qed.

Lemma decodeNode_decoded : forall j n, decodeNode j = Some n -> decoded n.
Proof.
  intros j n H. destruct j; try discriminate; [injection H as <-; apply emptyNode_decoded|].
  rewrite decodeNode_obj in H. set (fs := decMembers m) in *.
  apply assemble_inv in H as (E0 & E1 & E2 & E3 & E4 & E5 & E6 & E7 & E8 & E9 & E10 & E11 & E12 & E13 & E14 & E15 & E16 & E17 & E18 & E19 & E20 & E21 & E22 & E23 & E24 & E25 & E26 & E27 & E28 & E29 & E30 & E31 & E32 & E33 & E34 & E35 & E36 & E37 & E38 & E39 & E40 & E41 & E42 & E43 & E44).
  constructor; auto.
  - intros t Ht. destruct (fRaw_inv _ _ _ _ _ E0 t Ht) as (j & _ & Hd). destruct j; try discriminate; simpl in Hd.
    + injection Hd as <-. now left.
    + destruct (allSome decStrElem l); inversion Hd; subst. right; split; [reflexivity|discriminate].
  - intros o Ho a Ha. unfold intFields in Ho.
    destruct Ho as [<-|Ho]; [destruct (fRaw_inv _ _ _ _ _ E1 a Ha) as (j & _ & Hd); eapply decInt_range; exact Hd|].
    destruct Ho as [<-|Ho]; [destruct (fRaw_inv _ _ _ _ _ E5 a Ha) as (j & _ & Hd); eapply decInt_range; exact Hd|].
    destruct Ho as [<-|Ho]; [destruct (fRaw_inv _ _ _ _ _ E6 a Ha) as (j & _ & Hd); eapply decInt_range; exact Hd|].
    destruct Ho as [<-|Ho]; [destruct (fRaw_inv _ _ _ _ _ E10 a Ha) as (j & _ & Hd); eapply decInt_range; exact Hd|].
    destruct Ho as [<-|Ho]; [destruct (fRaw_inv _ _ _ _ _ E11 a Ha) as (j & _ & Hd); eapply decInt_range; exact Hd|].
    destruct Ho as [<-|Ho]; [destruct (fRaw_inv _ _ _ _ _ E18 a Ha) as (j & _ & Hd); eapply decInt_range; exact Hd|].
    destruct Ho as [<-|Ho]; [destruct (fRaw_inv _ _ _ _ _ E19 a Ha) as (j & _ & Hd); eapply decInt_range; exact Hd|].
    destruct Ho as [<-|Ho]; [destruct (fRaw_inv _ _ _ _ _ E21 a Ha) as (j & _ & Hd); eapply decInt_range; exact Hd|].
    destruct Ho as [<-|Ho]; [destruct (fRaw_inv _ _ _ _ _ E22 a Ha) as (j & _ & Hd); eapply decInt_range; exact Hd|].
    destruct Ho.
  - intros o Ho a Ha. unfold floatFields in Ho.
    destruct Ho as [<-|Ho]; [destruct (fRaw_inv _ _ _ _ _ E12 a Ha) as (j & _ & Hd); eapply decFloat_finite; exact Hd|].
    destruct Ho as [<-|Ho]; [destruct (fRaw_inv _ _ _ _ _ E13 a Ha) as (j & _ & Hd); eapply decFloat_finite; exact Hd|].
    destruct Ho as [<-|Ho]; [destruct (fRaw_inv _ _ _ _ _ E14 a Ha) as (j & _ & Hd); eapply decFloat_finite; exact Hd|].
    destruct Ho as [<-|Ho]; [destruct (fRaw_inv _ _ _ _ _ E15 a Ha) as (j & _ & Hd); eapply decFloat_finite; exact Hd|].
    destruct Ho as [<-|Ho]; [destruct (fRaw_inv _ _ _ _ _ E16 a Ha) as (j & _ & Hd); eapply decFloat_finite; exact Hd|].
    destruct Ho.
  - intros l Hl v Hv. destruct (fRaw_inv _ _ _ _ _ E27 l Hl) as (j & _ & Hd). destruct j; try discriminate. simpl in Hd.
    destruct (allSome_In _ _ _ Hd v Hv) as (w & _ & Hw). eapply decAny_plain; exact Hw.
  - intros a Ha. rewrite Ha in E28. unfold fConst in E28. destruct (assoc "const" fs) as [[]|]; try discriminate.
    + injection E28 as <-. exact I.
    + destruct (decAny j) eqn:Ej; inversion E28; subst. eapply decAny_plain; exact Ej.
  - intros d Hd. rewrite Hd in E17. unfold fItems in E17. destruct (assoc "items" fs) as [[]|] eqn:Ef; try discriminate.
    injection E17 as <-. apply decMembers_field in Ef as (v & _ & Ef). eapply (decField_items "items"); [reflexivity | symmetry; exact Ef].
  - intros o Ho d Hd. unfold nofFields in Ho.
    destruct Ho as [<-|Ho]; [rewrite Hd in E3; unfold fNof in E3; destruct (assoc "additionalProperties" fs) as [[]|] eqn:Ef; try discriminate; injection E3 as <-; apply decMembers_field in Ef as (v & _ & Ef); eapply (decField_nof "additionalProperties"); [reflexivity | symmetry; exact Ef]|].
    destruct Ho as [<-|Ho]; [rewrite Hd in E24; unfold fNof in E24; destruct (assoc "additionalItems" fs) as [[]|] eqn:Ef; try discriminate; injection E24 as <-; apply decMembers_field in Ef as (v & _ & Ef); eapply (decField_nof "additionalItems"); [reflexivity | symmetry; exact Ef]|].
    destruct Ho as [<-|Ho]; [rewrite Hd in E25; unfold fNof in E25; destruct (assoc "unevaluatedItems" fs) as [[]|] eqn:Ef; try discriminate; injection E25 as <-; apply decMembers_field in Ef as (v & _ & Ef); eapply (decField_nof "unevaluatedItems"); [reflexivity | symmetry; exact Ef]|].
    destruct Ho.
Qed.

(* a JSON value nested anywhere in another *)
Inductive nested : json -> json -> Prop :=
| nested_refl : forall j, nested j j
| nested_arr : forall l x j, In x l -> nested x j -> nested (JArr l) j
| nested_obj : forall m k x j, In (k, x) m -> nested x j -> nested (JObj m) j.

Lemma nested_trans : forall a b c, nested a b -> nested b c -> nested a c.
Proof.
  intros a b c H. induction H; intros; auto.
  - eapply nested_arr; eauto.
  - eapply nested_obj; eauto.
Qed.

Lemma assoc_nested : forall m k v, assoc k m = Some v -> nested (JObj m) v.
Proof. intros m k v H. apply assoc_In in H. eapply nested_obj; [exact H | apply nested_refl]. Qed.

Lemma snd_nested : forall m x, In x (map snd m) -> nested (JObj m) x.
Proof. intros m x H. apply in_map_iff in H as ([k y] & <- & H). eapply nested_obj; [exact H | apply nested_refl]. Qed.

Definition fromText (j : json) (c : schemaNode) : Prop := c = emptyNode \/ exists t, nested j t /\ decodeNode t = Some c.

Lemma field_from : forall k v, match decField decodeNode k v with
  | VNode n => fromText v n
  | VMap l => forall c, In c (map snd l) -> fromText v c
  | VList l => forall c, In c l -> fromText v c
  | VItems d => forall c, In c (itemss (Some d)) -> fromText v c
  | VNof d => forall c, In c (nofs (Some d)) -> fromText v c
  | _ => True
  end.
Proof.
  intros k v. unfold decField. destruct (kindOf k).
  - destruct v; auto; destruct (decodeNode _) eqn:E; auto; right; eexists; split; try exact E; apply nested_refl.
  - destruct v; auto. destruct (allSomeKV decodeNode m) eqn:E; auto. intros c Hc.
    destruct (allSomeKV_In _ _ _ E c Hc) as (t & Ht & Hd). right. exists t. split; auto. now apply snd_nested.
  - destruct v; auto. destruct (allSome decodeNode l) eqn:E; auto. intros c Hc.
    destruct (allSome_In _ _ _ E c Hc) as (t & Ht & Hd). right. exists t. split; auto. eapply nested_arr; [exact Ht | apply nested_refl].
  - destruct v as [|[]| | | |l|m]; auto; try (intros c []).
    + destruct (allSome decodeNode l) eqn:E; auto. intros c Hc. cbn [itemss itNode itNodes onode olist app] in Hc.
      destruct Hc as [<-|Hc]; [now left|]. destruct (allSome_In _ _ _ E c Hc) as (t & Ht & Hd). right. exists t. split; auto.
      eapply nested_arr; [exact Ht | apply nested_refl].
    + destruct (decodeNode (JObj m)) eqn:E; auto. intros c [<-|[]]. right. eexists; split; [apply nested_refl | exact E].
  - destruct v as [|[]| | | |l|m]; auto; try (intros c []); destruct (decodeNode _) eqn:E; auto; intros c [<-|[]]; right; eexists; split; try exact E; apply nested_refl.
  - destruct v; exact I.
Qed.

Lemma sub_from : forall m n c, decodeNode (JObj m) = Some n -> In c (subnodes n) -> fromText (JObj m) c.
Proof.
  intros m n c H Hc. rewrite decodeNode_obj in H. set (fs := decMembers m) in *.
  apply assemble_inv in H as (E0 & E1 & E2 & E3 & E4 & E5 & E6 & E7 & E8 & E9 & E10 & E11 & E12 & E13 & E14 & E15 & E16 & E17 & E18 & E19 & E20 & E21 & E22 & E23 & E24 & E25 & E26 & E27 & E28 & E29 & E30 & E31 & E32 & E33 & E34 & E35 & E36 & E37 & E38 & E39 & E40 & E41 & E42 & E43 & E44).
  assert (K : forall k x, assoc k fs = Some x -> exists v, nested (JObj m) v /\ x = decField decodeNode k v).
  { intros k x Hx. apply decMembers_field in Hx as (v & Hv & ->). exists v. split; auto. now apply assoc_nested in Hv. }
  assert (T : forall v, nested (JObj m) v -> fromText v c -> fromText (JObj m) c).
  { intros v Hv [->|(t & Ht & Hd)]; [now left|]. right. exists t. split; auto. eapply nested_trans; eauto. }
  unfold subnodes in Hc.
  apply in_app_or in Hc as [Hc|Hc]; [unfold fMap in E2; destruct (assoc "properties" fs) as [[]|] eqn:Ef; try discriminate; injection E2 as E2; rewrite <- E2 in Hc; try (destruct Hc; fail); destruct (K _ _ Ef) as (v & Hv & Hx); pose proof (field_from "properties" v) as Q; rewrite <- Hx in Q; apply (T v Hv), Q, Hc|].
  apply in_app_or in Hc as [Hc|Hc]; [unfold fNof in E3; destruct (assoc "additionalProperties" fs) as [[]|] eqn:Ef; try discriminate; injection E3 as E3; rewrite <- E3 in Hc; try (destruct Hc; fail); destruct (K _ _ Ef) as (v & Hv & Hx); pose proof (field_from "additionalProperties" v) as Q; rewrite <- Hx in Q; apply (T v Hv), Q, Hc|].
  apply in_app_or in Hc as [Hc|Hc]; [unfold fMap in E4; destruct (assoc "patternProperties" fs) as [[]|] eqn:Ef; try discriminate; injection E4 as E4; rewrite <- E4 in Hc; try (destruct Hc; fail); destruct (K _ _ Ef) as (v & Hv & Hx); pose proof (field_from "patternProperties" v) as Q; rewrite <- Hx in Q; apply (T v Hv), Q, Hc|].
  apply in_app_or in Hc as [Hc|Hc]; [unfold fItems in E17; destruct (assoc "items" fs) as [[]|] eqn:Ef; try discriminate; injection E17 as E17; rewrite <- E17 in Hc; try (destruct Hc; fail); destruct (K _ _ Ef) as (v & Hv & Hx); pose proof (field_from "items" v) as Q; rewrite <- Hx in Q; apply (T v Hv), Q, Hc|].
  apply in_app_or in Hc as [Hc|Hc]; [unfold fNode in E20; destruct (assoc "contains" fs) as [[]|] eqn:Ef; try discriminate; injection E20 as E20; rewrite <- E20 in Hc; try (destruct Hc; fail); destruct (K _ _ Ef) as (v & Hv & Hx); pose proof (field_from "contains" v) as Q; rewrite <- Hx in Q; apply (T v Hv); destruct Hc as [<-|[]]; exact Q|].
  apply in_app_or in Hc as [Hc|Hc]; [unfold fList in E23; destruct (assoc "prefixItems" fs) as [[]|] eqn:Ef; try discriminate; injection E23 as E23; rewrite <- E23 in Hc; try (destruct Hc; fail); destruct (K _ _ Ef) as (v & Hv & Hx); pose proof (field_from "prefixItems" v) as Q; rewrite <- Hx in Q; apply (T v Hv), Q, Hc|].
  apply in_app_or in Hc as [Hc|Hc]; [unfold fNof in E24; destruct (assoc "additionalItems" fs) as [[]|] eqn:Ef; try discriminate; injection E24 as E24; rewrite <- E24 in Hc; try (destruct Hc; fail); destruct (K _ _ Ef) as (v & Hv & Hx); pose proof (field_from "additionalItems" v) as Q; rewrite <- Hx in Q; apply (T v Hv), Q, Hc|].
  apply in_app_or in Hc as [Hc|Hc]; [unfold fNof in E25; destruct (assoc "unevaluatedItems" fs) as [[]|] eqn:Ef; try discriminate; injection E25 as E25; rewrite <- E25 in Hc; try (destruct Hc; fail); destruct (K _ _ Ef) as (v & Hv & Hx); pose proof (field_from "unevaluatedItems" v) as Q; rewrite <- Hx in Q; apply (T v Hv), Q, Hc|].
  apply in_app_or in Hc as [Hc|Hc]; [unfold fNode in E29; destruct (assoc "not" fs) as [[]|] eqn:Ef; try discriminate; injection E29 as E29; rewrite <- E29 in Hc; try (destruct Hc; fail); destruct (K _ _ Ef) as (v & Hv & Hx); pose proof (field_from "not" v) as Q; rewrite <- Hx in Q; apply (T v Hv); destruct Hc as [<-|[]]; exact Q|].
  apply in_app_or in Hc as [Hc|Hc]; [unfold fList in E30; destruct (assoc "allOf" fs) as [[]|] eqn:Ef; try discriminate; injection E30 as E30; rewrite <- E30 in Hc; try (destruct Hc; fail); destruct (K _ _ Ef) as (v & Hv & Hx); pose proof (field_from "allOf" v) as Q; rewrite <- Hx in Q; apply (T v Hv), Q, Hc|].
  apply in_app_or in Hc as [Hc|Hc]; [unfold fList in E31; destruct (assoc "anyOf" fs) as [[]|] eqn:Ef; try discriminate; injection E31 as E31; rewrite <- E31 in Hc; try (destruct Hc; fail); destruct (K _ _ Ef) as (v & Hv & Hx); pose proof (field_from "anyOf" v) as Q; rewrite <- Hx in Q; apply (T v Hv), Q, Hc|].
  apply in_app_or in Hc as [Hc|Hc]; [unfold fList in E32; destruct (assoc "oneOf" fs) as [[]|] eqn:Ef; try discriminate; injection E32 as E32; rewrite <- E32 in Hc; try (destruct Hc; fail); destruct (K _ _ Ef) as (v & Hv & Hx); pose proof (field_from "oneOf" v) as Q; rewrite <- Hx in Q; apply (T v Hv), Q, Hc|].
  apply in_app_or in Hc as [Hc|Hc]; [unfold fMap in E35; destruct (assoc "$defs" fs) as [[]|] eqn:Ef; try discriminate; injection E35 as E35; rewrite <- E35 in Hc; try (destruct Hc; fail); destruct (K _ _ Ef) as (v & Hv & Hx); pose proof (field_from "$defs" v) as Q; rewrite <- Hx in Q; apply (T v Hv), Q, Hc|].
  apply in_app_or in Hc as [Hc|Hc]; [unfold fMap in E36; destruct (assoc "definitions" fs) as [[]|] eqn:Ef; try discriminate; injection E36 as E36; rewrite <- E36 in Hc; try (destruct Hc; fail); destruct (K _ _ Ef) as (v & Hv & Hx); pose proof (field_from "definitions" v) as Q; rewrite <- Hx in Q; apply (T v Hv), Q, Hc|].
  apply in_app_or in Hc as [Hc|Hc]; [unfold fNode in E37; destruct (assoc "if" fs) as [[]|] eqn:Ef; try discriminate; injection E37 as E37; rewrite <- E37 in Hc; try (destruct Hc; fail); destruct (K _ _ Ef) as (v & Hv & Hx); pose proof (field_from "if" v) as Q; rewrite <- Hx in Q; apply (T v Hv); destruct Hc as [<-|[]]; exact Q|].
  apply in_app_or in Hc as [Hc|Hc]; [unfold fNode in E38; destruct (assoc "then" fs) as [[]|] eqn:Ef; try discriminate; injection E38 as E38; rewrite <- E38 in Hc; try (destruct Hc; fail); destruct (K _ _ Ef) as (v & Hv & Hx); pose proof (field_from "then" v) as Q; rewrite <- Hx in Q; apply (T v Hv); destruct Hc as [<-|[]]; exact Q|].
  apply in_app_or in Hc as [Hc|Hc]; [unfold fNode in E39; destruct (assoc "else" fs) as [[]|] eqn:Ef; try discriminate; injection E39 as E39; rewrite <- E39 in Hc; try (destruct Hc; fail); destruct (K _ _ Ef) as (v & Hv & Hx); pose proof (field_from "else" v) as Q; rewrite <- Hx in Q; apply (T v Hv); destruct Hc as [<-|[]]; exact Q|].
  apply in_app_or in Hc as [Hc|Hc]; [unfold fMap in E41; destruct (assoc "dependentSchemas" fs) as [[]|] eqn:Ef; try discriminate; simpl in E41; injection E41 as E41; rewrite <- E41 in Hc; try (destruct Hc; fail); destruct (K _ _ Ef) as (v & Hv & Hx); pose proof (field_from "dependentSchemas" v) as Q; rewrite <- Hx in Q; apply (T v Hv), Q, Hc|].
  rewrite E42, E43 in Hc. destruct Hc.
Qed.

Theorem within_from : forall n c, within n c -> forall j, decodeNode j = Some n -> fromText j c.
Proof.
  induction 1 as [n|n b c Hb Hw IH]; intros j Hj.
  - right. exists j. split; [apply nested_refl | exact Hj].
  - destruct j; try discriminate.
    + injection Hj as <-. destruct Hb.
    + destruct (sub_from _ _ _ Hj Hb) as [->|(t & Ht & Hd)].
      * inversion Hw; subst; [now left|]. match goal with Q : In _ (subnodes emptyNode) |- _ => destruct Q end.
      * destruct (IH _ Hd) as [->|(u & Hu & Hd')]; [now left|]. right. exists u. split; auto. eapply nested_trans; eauto.
Qed.
