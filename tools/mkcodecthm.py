#!/usr/bin/env python3
"""Prints rocq/theories/CodecThm.v: the field-by-field part of the round trip proof for Codec.v."""
import io, contextlib, importlib.util, os
here=os.path.dirname(os.path.abspath(__file__))
spec=importlib.util.spec_from_file_location("mkcodec",os.path.join(here,"mkcodec.py"))
m=importlib.util.module_from_spec(spec)
with contextlib.redirect_stdout(io.StringIO()): spec.loader.exec_module(m)
F=m.F; we=m.we; rd=m.rd
print(r'''(* The round trip of C43, field by field.  Generated by tools/mkcodecthm.py. *)
From Coq Require Import ZArith List String Bool Lia.
From Verif Require Import Base Float64 Json Schema NodeFacts Codec CodecFacts.
Import ListNotations.
Open Scope string_scope.
Open Scope Z_scope.
''')
def encexpr(f,k,t):
    if t=="strsmap": return "onil encStrsMap (%s n)"%f
    if t=="barmap": return "onil (encKV encodeNode) (%s n)"%f
    return "omap %s (%s n)"%(we[t],f)
print("Definition tbl (n : schemaNode) : list (string * option json) :=\n  ["+";\n   ".join('("%s", %s)'%(k,encexpr(f,k,t)) for f,k,t in F)+"].\n")
xs=" ".join("x%d"%i for i in range(len(F)+3))
print(r'''Lemma encodeNode_eq : forall n, encodeNode n = JObj (members (tbl n)).
Proof.
  intros n. unfold members, tbl. cbn [flat_map fst snd]. rewrite app_nil_r. destruct n; reflexivity.
Qed.

Fixpoint nodups (l : list string) : bool := match l with [] => true | x :: r => negb (mem_string x r) && nodups r end.
Lemma nodups_NoDup : forall l, nodups l = true -> NoDup l.
Proof.
  induction l; simpl; intros H; [apply NoDup_nil|]. apply andb_prop in H as [H1 H2]. apply NoDup_cons; auto.
  intros Hin. rewrite (proj2 (mem_string_In a l) Hin) in H1. discriminate.
Qed.

Lemma tbl_keys : forall n, NoDup (map fst (tbl n)).
Proof.
  intros n. unfold tbl. cbn [map fst].
  apply nodups_NoDup. vm_compute. reflexivity.
Qed.

Lemma rd_tbl : forall n k, assoc k (decMembers (members (tbl n))) =
  match assoc k (tbl n) with Some (Some v) => Some (decField decodeNode k v) | _ => None end.
Proof. intros. rewrite assoc_decMembers, assoc_members by apply tbl_keys. destruct (assoc k (tbl n)) as [[v|]|]; reflexivity. Qed.

Section Readers.
  Variable fs : list (string * dval).
  Variable k : string.
  Definition reads (o : option json) : Prop := assoc k fs = omap (decField decodeNode k) o.

  Lemma fRaw_rt : forall A (enc : A -> json) dec (o : option A), kindOf k = KRaw -> reads (omap enc o) ->
    (forall a, o = Some a -> enc a <> JNull /\ dec (enc a) = Some a) -> fRaw dec fs k = Some o.
  Proof.
    intros A enc dec o K R H. unfold reads in R. unfold fRaw. rewrite R. destruct o as [a|]; simpl; auto.
    destruct (H a eq_refl) as [H1 H2]. unfold decField. rewrite K. destruct (enc a) eqn:E; try congruence; rewrite H2; auto.
  Qed.

  Lemma fConst_rt : forall o, kindOf k = KRaw -> reads (omap encAny o) ->
    (forall a, o = Some a -> plainAny a) -> fConst fs k = Some o.
  Proof.
    intros o K R H. unfold reads in R. unfold fConst. rewrite R. destruct o as [a|]; simpl; auto.
    unfold decField. rewrite K. pose proof (decAny_enc a (H a eq_refl)) as D.
    destruct (encAny a) eqn:E; try (simpl in D; congruence); rewrite D; reflexivity.
  Qed.

  Lemma fNode_rt : forall o, kindOf k = KNode -> reads (omap encodeNode o) ->
    (forall a, o = Some a -> decodeNode (encodeNode a) = Some a) -> fNode fs k = Some o.
  Proof.
    intros o K R H. unfold reads in R. unfold fNode. rewrite R. destruct o as [a|]; simpl; auto.
    unfold decField. rewrite K. rewrite encodeNode_eq in *. rewrite <- encodeNode_eq, (H a eq_refl). reflexivity.
  Qed.

  Lemma fMap_rt : forall o, kindOf k = KMap -> reads (omap (encKV encodeNode) o) ->
    (forall l c, o = Some l -> In c (map snd l) -> decodeNode (encodeNode c) = Some c) -> fMap fs k = Some o.
  Proof.
    intros o K R H. unfold reads in R. unfold fMap. rewrite R. destruct o as [a|]; simpl; auto.
    unfold decField. rewrite K. unfold encKV. rewrite allSomeKV_map; auto. intros; eapply H; eauto.
  Qed.

  Lemma fList_rt : forall o, kindOf k = KList -> reads (omap (encList encodeNode) o) ->
    (forall l c, o = Some l -> In c l -> decodeNode (encodeNode c) = Some c) -> fList fs k = Some o.
  Proof.
    intros o K R H. unfold reads in R. unfold fList. rewrite R. destruct o as [a|]; simpl; auto.
    unfold decField. rewrite K. unfold encList. rewrite allSome_map; auto. intros; eapply H; eauto.
  Qed.

  Definition itemsShape (d : itemsData schemaNode) : Prop :=
    d = mkItems None None true \/ exists n, d = mkItems (Some n) (Some []) false.
  Lemma fItems_rt : forall o, kindOf k = KItems -> reads (omap (encItems encodeNode) o) ->
    (forall d, o = Some d -> itemsShape d /\ (forall c, itNode d = Some c -> decodeNode (encodeNode c) = Some c)) -> fItems fs k = Some o.
  Proof.
    intros o K R H. unfold reads in R. unfold fItems. rewrite R. destruct o as [a|]; simpl; auto.
    destruct (H a eq_refl) as [[->|[n ->]] H2].
    - unfold decField. rewrite K. reflexivity.
    - unfold decField. rewrite K. unfold encItems. cbn [itDisallow itNode]. rewrite encodeNode_eq. rewrite <- encodeNode_eq, (H2 n eq_refl). reflexivity.
  Qed.

  Definition nofShape (d : nodeOrFalse schemaNode) : Prop :=
    d = mkNOF None true \/ exists n, d = mkNOF (Some n) false.
  Lemma fNof_rt : forall o, kindOf k = KNof -> reads (omap (encNof encodeNode) o) ->
    (forall d, o = Some d -> nofShape d /\ (forall c, nofSchema d = Some c -> decodeNode (encodeNode c) = Some c)) -> fNof fs k = Some o.
  Proof.
    intros o K R H. unfold reads in R. unfold fNof. rewrite R. destruct o as [a|]; simpl; auto.
    destruct (H a eq_refl) as [[->|[n ->]] H2].
    - unfold decField. rewrite K. reflexivity.
    - unfold decField. rewrite K. unfold encNof. cbn [nofFalse nofSchema]. rewrite encodeNode_eq. rewrite <- encodeNode_eq, (H2 n eq_refl). reflexivity.
  Qed.

  Lemma strsMap_rt : forall l, kindOf k = KRaw -> reads (onil encStrsMap l) -> orNil (fRaw decStrsMap fs k) = Some l.
  Proof.
    intros l K R. unfold reads in R. unfold fRaw. rewrite R. destruct l as [|p l]; auto.
    cbn [onil omap]. unfold decField. rewrite K. unfold encStrsMap. cbn [decStrsMap].
    rewrite allSomeKV_map; auto. intros. unfold decStrsElem, decStrs. rewrite allSome_map; auto.
  Qed.

  Lemma barMap_rt : forall l, kindOf k = KMap -> reads (onil (encKV encodeNode) l) ->
    (forall c, In c (map snd l) -> decodeNode (encodeNode c) = Some c) -> orNil (fMap fs k) = Some l.
  Proof.
    intros l K R H. unfold reads in R. unfold fMap. rewrite R. destruct l as [|p l]; auto.
    cbn [onil omap]. unfold decField. rewrite K. unfold encKV. rewrite allSomeKV_map; auto.
  Qed.
End Readers.

Definition inInt (z : Z) : Prop := - 2^63 <= z < 2^63.
Definition typeShape (t : multipleType) : Prop :=
  (mtSingle t <> "" /\ mtMultiple t = None) \/ (mtSingle t = "" /\ exists x r, mtMultiple t = Some (x :: r)).
Definition each {A} (o : option A) (P : A -> Prop) : Prop := forall a, o = Some a -> P a.
''')
ints=[f for f,k,t in F if t=="int"]; flts=[f for f,k,t in F if t=="flt"]; nofl=[f for f,k,t in F if t=="nof"]
print("Definition intFields (n : schemaNode) : list (option Z) := [%s].\n"%"; ".join(f+" n" for f in ints))
print("Definition floatFields (n : schemaNode) : list (option f64) := [%s].\n"%"; ".join(f+" n" for f in flts))
print("Definition nofFields (n : schemaNode) : list (option (nodeOrFalse schemaNode)) := [%s].\n"%"; ".join(f+" n" for f in nofl))
print(r'''(* what a node must look like to survive being written and read *)
Record writable (n : schemaNode) : Prop := mkWritable {
  w_type : each (sType n) typeShape;
  w_ints : forall o, In o (intFields n) -> each o inInt;
  w_floats : forall o, In o (floatFields n) -> each o (fun f => finite f = true);
  w_enum : each (sEnum n) (fun l => forall v, In v l -> plainAny v);
  w_const : each (sConst n) plainAny;
  w_items : each (sItems n) itemsShape;
  w_nofs : forall o, In o (nofFields n) -> each o nofShape;
  w_if : sMergedIf n = [];
  w_not : sMergedNot n = [];
  w_cons : sConstraints n = None
}.

Lemma type_rt : forall t, typeShape t -> encType t <> JNull /\ decType (encType t) = Some t.
Proof.
  intros [s m] [[H1 H2]|[H1 (x & r & H2)]]; unfold encType; simpl in *; subst.
  - apply String.eqb_neq in H1. rewrite H1. simpl. split; [discriminate|reflexivity].
  - simpl. split; [discriminate|]. rewrite (allSome_map decStrElem JStr r) by reflexivity. reflexivity.
Qed.

Theorem encode_decode : forall n, (forall c, within n c -> writable c) -> decodeNode (encodeNode n) = Some n.
Proof.
  induction n as [n IH] using node_ind'; intros W.
  assert (S : forall c, In c (subnodes n) -> decodeNode (encodeNode c) = Some c).
  { intros c Hc. apply IH; auto. intros d Hd. apply W. eapply within_step; eauto. }
  destruct (W n (within_refl n)) as [Wt Wi Wf We Wc Wit Wn W1 W2 W3]. clear W IH.
  rewrite encodeNode_eq, decodeNode_obj. set (fs := decMembers (members (tbl n))).
  assert (R : forall k o, assoc k (tbl n) = Some o -> reads fs k o).
  { intros k o Hk. unfold reads, fs. rewrite rd_tbl, Hk. destruct o; reflexivity. }
  clearbody fs. unfold assemble.''')
def step(i,f,k,t):
    R='(R "%s" _ eq_refl)'%k
    if t=="int": return 'rewrite (fRaw_rt fs "%s" _ JInt decInt (%s n) eq_refl %s); [| intros a Ha; split; [discriminate | apply decInt_enc, (Wi (%s n)); [simpl; tauto | exact Ha]]].'%(k,f,R,f)
    if t=="flt": return 'rewrite (fRaw_rt fs "%s" _ encFloat decFloat (%s n) eq_refl %s); [| intros a Ha; split; [apply encFloat_not_null | apply decFloat_enc, (Wf (%s n)); [simpl; tauto | exact Ha]]].'%(k,f,R,f)
    if t=="type": return 'rewrite (fRaw_rt fs "%s" _ encType decType (%s n) eq_refl %s); [| intros a Ha; apply type_rt, Wt, Ha].'%(k,f,R)
    if t=="str": return 'rewrite (fRaw_rt fs "%s" _ JStr decStr (%s n) eq_refl %s); [| intros a Ha; split; [discriminate | reflexivity]].'%(k,f,R)
    if t=="bool": return 'rewrite (fRaw_rt fs "%s" _ JBool decBool (%s n) eq_refl %s); [| intros a Ha; split; [discriminate | reflexivity]].'%(k,f,R)
    if t=="strs": return 'rewrite (fRaw_rt fs "%s" _ (fun l => JArr (map JStr l)) decStrs (%s n) eq_refl %s); [| intros a Ha; split; [discriminate | apply allSome_map; reflexivity]].'%(k,f,R)
    if t=="anys": return 'rewrite (fRaw_rt fs "%s" _ (fun l => JArr (map encAny l)) decAnys (%s n) eq_refl %s); [| intros a Ha; split; [discriminate | apply allSome_map; intros b Hb; apply decAny_enc, (We a Ha b Hb)]].'%(k,f,R)
    if t=="const": return 'rewrite (fConst_rt fs "%s" (%s n) eq_refl %s Wc).'%(k,f,R)
    if t=="node": return 'rewrite (fNode_rt fs "%s" (%s n) eq_refl %s); [| intros a Ha; apply S, sub_%s; rewrite Ha; now left].'%(k,f,R,f)
    if t=="map": return 'rewrite (fMap_rt fs "%s" (%s n) eq_refl %s); [| intros l c Hl Hc; apply S, sub_%s; rewrite Hl; exact Hc].'%(k,f,R,f)
    if t=="list": return 'rewrite (fList_rt fs "%s" (%s n) eq_refl %s); [| intros l c Hl Hc; apply S, sub_%s; rewrite Hl; exact Hc].'%(k,f,R,f)
    if t=="items": return 'rewrite (fItems_rt fs "%s" (%s n) eq_refl %s); [| intros d Hd; split; [apply Wit, Hd | intros c Hc; apply S, sub_%s; rewrite Hd; cbn [itemss]; rewrite Hc; now left]].'%(k,f,R,f)
    if t=="nof": return 'rewrite (fNof_rt fs "%s" (%s n) eq_refl %s); [| intros d Hd; split; [apply (Wn (%s n)); [simpl; tauto | exact Hd] | intros c Hc; apply S, sub_%s; rewrite Hd; cbn [nofs]; rewrite Hc; now left]].'%(k,f,R,f,f)
    if t=="strsmap": return 'rewrite (strsMap_rt fs "%s" (%s n) eq_refl %s).'%(k,f,R)
    if t=="barmap": return 'rewrite (barMap_rt fs "%s" (%s n) eq_refl %s); [| intros c Hc; apply S, sub_%s; exact Hc].'%(k,f,R,f)
for i,(f,k,t) in enumerate(F): print("  "+step(i,f,k,t))
print("  rewrite <- W1, <- W2, <- W3. destruct n; reflexivity.\nQed.\n")
# what decoding guarantees
print(r'''(* what decoding guarantees about one node *)
Record decoded (n : schemaNode) : Prop := mkDecoded {
  d_type : each (sType n) (fun t => mtMultiple t = None \/ (mtSingle t = "" /\ mtMultiple t <> None));
  d_ints : forall o, In o (intFields n) -> each o inInt;
  d_floats : forall o, In o (floatFields n) -> each o (fun f => finite f = true);
  d_enum : each (sEnum n) (fun l => forall v, In v l -> plainAny v);
  d_const : each (sConst n) plainAny;
  d_items : each (sItems n) (fun d => d = mkItems None None true \/ (exists a, d = mkItems (Some a) (Some []) false) \/ exists l, d = mkItems (Some emptyNode) (Some l) false);
  d_nofs : forall o, In o (nofFields n) -> each o (fun d => d = mkNOF None false \/ nofShape d);
  d_if : sMergedIf n = [];
  d_not : sMergedNot n = [];
  d_cons : sConstraints n = None
}.

Lemma emptyNode_decoded : decoded emptyNode.
Proof.
  constructor; unfold each; simpl; intros; try discriminate; auto;
  repeat match goal with H : _ \/ _ |- _ => destruct H as [<-|H]; [discriminate|] | H : False |- _ => destruct H end.
Qed.

Lemma fRaw_inv : forall A (dec : json -> option A) fs k o, fRaw dec fs k = Some o -> forall a, o = Some a ->
  exists j, assoc k fs = Some (VRaw j) /\ dec j = Some a.
Proof.
  unfold fRaw. intros A dec fs k o H a ->. destruct (assoc k fs) as [[]|]; try discriminate.
  destruct (dec j) eqn:E; inversion H; subst. eauto.
Qed.

Lemma decInt_range : forall j z, decInt j = Some z -> inInt z.
Proof.
  intros j z H. destruct j; try discriminate. unfold decInt in H.
  destruct (- 2^63 <=? z0) eqn:E1; [|discriminate]. destruct (z0 <? 2^63) eqn:E2; [|discriminate]. simpl in H. injection H as <-.
  apply Z.leb_le in E1. apply Z.ltb_lt in E2. unfold inInt. lia.
Qed.

Lemma decFloat_finite : forall j f, decFloat j = Some f -> finite f = true.
Proof.
  intros j f H. destruct j; try discriminate; unfold decFloat in H.
  - destruct (finite (fofZ z)) eqn:E; [injection H as <-; exact E | discriminate].
  - destruct (finite f0) eqn:E; [injection H as <-; exact E | discriminate].
Qed.

Lemma decMembers_field : forall k m x, assoc k (decMembers m) = Some x -> exists v, assoc k m = Some v /\ x = decField decodeNode k v.
Proof. intros k m x H. rewrite assoc_decMembers in H. destruct (assoc k m); inversion H; eauto. Qed.

Lemma decField_items : forall k v d, kindOf k = KItems -> decField decodeNode k v = VItems d ->
  d = mkItems None None true \/ (exists a, d = mkItems (Some a) (Some []) false) \/ exists l, d = mkItems (Some emptyNode) (Some l) false.
Proof.
  intros k v d K H. unfold decField in H. rewrite K in H. destruct v as [|[]| | | |l|m]; try discriminate.
  - injection H as <-; auto.
  - destruct (allSome decodeNode l); inversion H; eauto.
  - destruct (decodeNode (JObj m)); inversion H; eauto.
Qed.

Lemma decField_nof : forall k v d, kindOf k = KNof -> decField decodeNode k v = VNof d -> d = mkNOF None false \/ nofShape d.
Proof.
  intros k v d K H. unfold decField in H. rewrite K in H. unfold nofShape. destruct v as [|[]| | | |l|m]; try discriminate.
  - injection H as <-; auto.
  - injection H as <-; auto.
  - destruct (decodeNode (JObj m)); inversion H; eauto.
Qed.
''')
print("Lemma assemble_inv : forall fs n, assemble fs = Some n ->")
conds=[]
for i,(f,k,t) in enumerate(F):
    if t=="strsmap": e='orNil (fRaw decStrsMap fs "%s")'%k
    elif t=="barmap": e='orNil (fMap fs "%s")'%k
    else: e='%s fs "%s"'%(rd[t],k)
    conds.append("%s = Some (%s n)"%(e,f))
conds+=["sMergedIf n = []","sMergedNot n = []","sConstraints n = None"]
print("  "+" /\\\n  ".join(conds)+".")
print("Proof.\n  intros fs n H. unfold assemble in H.")
for i,(f,k,t) in enumerate(F):
    print("  match type of H with match ?m with _ => _ end = _ => destruct m as [x%d|] eqn:E%d; [|discriminate H] end."%(i,i))
print("  injection H as <-.")
for i in range(len(conds)-1): print("  split; [%s|]."%("reflexivity"))
print("  reflexivity.\nQed.\n")
pat="("+" & ".join("E%d"%i for i in range(len(conds)))+")"
n=len(F)
idx={f:i for i,(f,k,t) in enumerate(F)}
print("Lemma decodeNode_decoded : forall j n, decodeNode j = Some n -> decoded n.\nProof.")
print("  intros j n H. destruct j; try discriminate; [injection H as <-; apply emptyNode_decoded|].")
print("  rewrite decodeNode_obj in H. set (fs := decMembers m) in *.")
print("  apply assemble_inv in H as %s."%pat)
print("  constructor; auto.")
print("  - intros t Ht. destruct (fRaw_inv _ _ _ _ _ E%d t Ht) as (j & _ & Hd). destruct j; try discriminate; simpl in Hd."%idx["sType"])
print("    + injection Hd as <-. now left.\n    + destruct (allSome decStrElem l); inversion Hd; subst. right; split; [reflexivity|discriminate].")
print("  - intros o Ho a Ha. unfold intFields in Ho.")
for f in ints: print("    destruct Ho as [<-|Ho]; [destruct (fRaw_inv _ _ _ _ _ E%d a Ha) as (j & _ & Hd); eapply decInt_range; exact Hd|]."%idx[f])
print("    destruct Ho.")
print("  - intros o Ho a Ha. unfold floatFields in Ho.")
for f in flts: print("    destruct Ho as [<-|Ho]; [destruct (fRaw_inv _ _ _ _ _ E%d a Ha) as (j & _ & Hd); eapply decFloat_finite; exact Hd|]."%idx[f])
print("    destruct Ho.")
print("  - intros l Hl v Hv. destruct (fRaw_inv _ _ _ _ _ E%d l Hl) as (j & _ & Hd). destruct j; try discriminate. simpl in Hd."%idx["sEnum"])
print("    destruct (allSome_In _ _ _ Hd v Hv) as (w & _ & Hw). eapply decAny_plain; exact Hw.")
print("  - intros a Ha. rewrite Ha in E%d. unfold fConst in E%d. destruct (assoc \"const\" fs) as [[]|]; try discriminate."%(idx["sConst"],idx["sConst"]))
print("    + injection E%d as <-. exact I.\n    + destruct (decAny j) eqn:Ej; inversion E%d; subst. eapply decAny_plain; exact Ej."%(idx["sConst"],idx["sConst"]))
print("  - intros d Hd. rewrite Hd in E%d. unfold fItems in E%d. destruct (assoc \"items\" fs) as [[]|] eqn:Ef; try discriminate."%(idx["sItems"],idx["sItems"]))
print("    injection E%d as <-. apply decMembers_field in Ef as (v & _ & Ef). eapply (decField_items \"items\"); [reflexivity | symmetry; exact Ef]."%idx["sItems"])
print("  - intros o Ho d Hd. unfold nofFields in Ho.")
for f in nofl:
    k=[k for ff,k,t in F if ff==f][0]; i=idx[f]
    print("    destruct Ho as [<-|Ho]; [rewrite Hd in E%d; unfold fNof in E%d; destruct (assoc \"%s\" fs) as [[]|] eqn:Ef; try discriminate; injection E%d as <-; apply decMembers_field in Ef as (v & _ & Ef); eapply (decField_nof \"%s\"); [reflexivity | symmetry; exact Ef]|]."%(i,i,k,i,k))
print("    destruct Ho.\nQed.")
# every sub-node comes from a nested object
print(r'''
(* a JSON value nested anywhere in another *)
Inductive nested : json -> json -> Prop :=
| nested_refl : forall j, nested j j
| nested_arr : forall l x j, In x l -> nested x j -> nested (JArr l) j
| nested_obj : forall m k x j, In (k, x) m -> nested x j -> nested (JObj m) j.

Lemma nested_trans : forall a b c, nested a b -> nested b c -> nested a c.
Proof.
  intros a b c H. induction H; intros; auto.
  - eapply nested_arr; eauto.
  - eapply nested_obj; eauto.
Qed.

Lemma assoc_nested : forall m k v, assoc k m = Some v -> nested (JObj m) v.
Proof. intros m k v H. apply assoc_In in H. eapply nested_obj; [exact H | apply nested_refl]. Qed.

Lemma snd_nested : forall m x, In x (map snd m) -> nested (JObj m) x.
Proof. intros m x H. apply in_map_iff in H as ([k y] & <- & H). eapply nested_obj; [exact H | apply nested_refl]. Qed.

Definition fromText (j : json) (c : schemaNode) : Prop := c = emptyNode \/ exists t, nested j t /\ decodeNode t = Some c.

Lemma field_from : forall k v, match decField decodeNode k v with
  | VNode n => fromText v n
  | VMap l => forall c, In c (map snd l) -> fromText v c
  | VList l => forall c, In c l -> fromText v c
  | VItems d => forall c, In c (itemss (Some d)) -> fromText v c
  | VNof d => forall c, In c (nofs (Some d)) -> fromText v c
  | _ => True
  end.
Proof.
  intros k v. unfold decField. destruct (kindOf k).
  - destruct v; auto; destruct (decodeNode _) eqn:E; auto; right; eexists; split; try exact E; apply nested_refl.
  - destruct v; auto. destruct (allSomeKV decodeNode m) eqn:E; auto. intros c Hc.
    destruct (allSomeKV_In _ _ _ E c Hc) as (t & Ht & Hd). right. exists t. split; auto. now apply snd_nested.
  - destruct v; auto. destruct (allSome decodeNode l) eqn:E; auto. intros c Hc.
    destruct (allSome_In _ _ _ E c Hc) as (t & Ht & Hd). right. exists t. split; auto. eapply nested_arr; [exact Ht | apply nested_refl].
  - destruct v as [|[]| | | |l|m]; auto; try (intros c []).
    + destruct (allSome decodeNode l) eqn:E; auto. intros c Hc. cbn [itemss itNode itNodes onode olist app] in Hc.
      destruct Hc as [<-|Hc]; [now left|]. destruct (allSome_In _ _ _ E c Hc) as (t & Ht & Hd). right. exists t. split; auto.
      eapply nested_arr; [exact Ht | apply nested_refl].
    + destruct (decodeNode (JObj m)) eqn:E; auto. intros c [<-|[]]. right. eexists; split; [apply nested_refl | exact E].
  - destruct v as [|[]| | | |l|m]; auto; try (intros c []); destruct (decodeNode _) eqn:E; auto; intros c [<-|[]]; right; eexists; split; try exact E; apply nested_refl.
  - destruct v; exact I.
Qed.
''')
print("Lemma sub_from : forall m n c, decodeNode (JObj m) = Some n -> In c (subnodes n) -> fromText (JObj m) c.\nProof.")
print("  intros m n c H Hc. rewrite decodeNode_obj in H. set (fs := decMembers m) in *.")
print("  apply assemble_inv in H as %s."%pat)
print(r'''  assert (K : forall k x, assoc k fs = Some x -> exists v, nested (JObj m) v /\ x = decField decodeNode k v).
  { intros k x Hx. apply decMembers_field in Hx as (v & Hv & ->). exists v. split; auto. now apply assoc_nested in Hv. }
  assert (T : forall v, nested (JObj m) v -> fromText v c -> fromText (JObj m) c).
  { intros v Hv [->|(t & Ht & Hd)]; [now left|]. right. exists t. split; auto. eapply nested_trans; eauto. }
  unfold subnodes in Hc.''')
subs=[(f,k,t) for f,k,t in F if t in("map","nof","items","node","list","barmap")]
con={"map":("omaps","fMap"),"nof":("nofs","fNof"),"items":("itemss","fItems"),"node":("onode","fNode"),"list":("olist","fList")}
for f,k,t in subs:
    i=idx[f]
    if t=="barmap":
        body='unfold fMap in E%d; destruct (assoc "%s" fs) as [[]|] eqn:Ef; try discriminate; simpl in E%d; injection E%d as E%d; rewrite <- E%d in Hc; try (destruct Hc; fail); destruct (K _ _ Ef) as (v & Hv & Hx); pose proof (field_from "%s" v) as Q; rewrite <- Hx in Q; apply (T v Hv), Q, Hc'%(i,k,i,i,i,i,k)
    else:
        q = "apply (T v Hv); destruct Hc as [<-|[]]; exact Q" if t=="node" else "apply (T v Hv), Q, Hc"
        body='unfold %s in E%d; destruct (assoc "%s" fs) as [[]|] eqn:Ef; try discriminate; injection E%d as E%d; rewrite <- E%d in Hc; try (destruct Hc; fail); destruct (K _ _ Ef) as (v & Hv & Hx); pose proof (field_from "%s" v) as Q; rewrite <- Hx in Q; %s'%(con[t][1],i,k,i,i,i,k,q)
    print("  apply in_app_or in Hc as [Hc|Hc]; [%s|]."%body)
print("  rewrite E%d, E%d in Hc. destruct Hc.\nQed."%(len(F),len(F)+1))
print(r'''
Theorem within_from : forall n c, within n c -> forall j, decodeNode j = Some n -> fromText j c.
Proof.
  induction 1 as [n|n b c Hb Hw IH]; intros j Hj.
  - right. exists j. split; [apply nested_refl | exact Hj].
  - destruct j; try discriminate.
    + injection Hj as <-. destruct Hb.
    + destruct (sub_from _ _ _ Hj Hb) as [->|(t & Ht & Hd)].
      * inversion Hw; subst; [now left|]. match goal with Q : In _ (subnodes emptyNode) |- _ => destruct Q end.
      * destruct (IH _ Hd) as [->|(u & Hu & Hd')]; [now left|]. right. exists u. split; auto. eapply nested_trans; eauto.
Qed.''')
