(* C43 in terms of the schema's text. *)
From Coq Require Import ZArith List String Bool Lia.
From Verif Require Import Base Float64 Json Schema NodeFacts Codec CodecFacts CodecThm.
Import ListNotations.
Open Scope string_scope.
Open Scope Z_scope.

(* no object in the text, however deep, writes items as an array of schemas, true for
   additionalProperties, additionalItems or unevaluatedItems, or an empty type *)
Definition keepsText (j : json) : Prop :=
  forall m, nested j (JObj m) ->
    (forall l, assoc "items" m = Some (JArr l) -> l = []) /\
    assoc "additionalProperties" m <> Some (JBool true) /\
    assoc "additionalItems" m <> Some (JBool true) /\
    assoc "unevaluatedItems" m <> Some (JBool true) /\
    assoc "type" m <> Some (JStr "") /\ assoc "type" m <> Some (JArr []).

Lemma writable_empty : writable emptyNode.
Proof.
  destruct emptyNode_decoded. constructor; auto; intros d Hd; try discriminate.
  intros a Ha. unfold nofFields in Hd. repeat (destruct Hd as [<-|Hd]; [discriminate|]). destruct Hd.
Qed.

Lemma writable_of_text : forall m n, decodeNode (JObj m) = Some n -> keepsText (JObj m) -> writable n.
Proof.
  intros m n Hn Hk. destruct (decodeNode_decoded _ _ Hn) as [Dt Di Df De Dc Dit Dn D1 D2 D3].
  destruct (Hk m (nested_refl _)) as (Ki & Ka & Kb & Kc & Kt1 & Kt2). clear Hk.
  rewrite decodeNode_obj in Hn. apply assemble_inv in Hn.
  destruct Hn as (E0 & E1 & E2 & E3 & Hn). repeat match type of Hn with _ /\ _ => let H := fresh "F" in destruct Hn as [H Hn] end.
  constructor; auto.
  - intros t Ht. destruct (fRaw_inv _ _ _ _ _ E0 t Ht) as (v & Hv & Hd).
    rewrite assoc_decMembers in Hv. destruct (assoc "type" m) as [w|] eqn:Ew; [|discriminate].
    injection Hv as Hv. unfold decField in Hv. change (kindOf "type") with KRaw in Hv. cbn iota in Hv.
    assert (w = v) by (destruct w; congruence). subst w. destruct v; try discriminate; simpl in Hd.
    + injection Hd as <-. left. simpl. split; auto. intros ->. apply Kt1. reflexivity.
    + destruct l as [|a l]; [exfalso; apply Kt2; reflexivity|].
      fold (allSome decStrElem (a :: l)) in Hd. rewrite allSome_cons in Hd.
      destruct (decStrElem a); [|discriminate]. destruct (allSome decStrElem l); inversion Hd; subst. right. split; [reflexivity | eexists; eexists; reflexivity].
  - intros d Hd. destruct (Dit d Hd) as [->|[[a ->]|[l ->]]]; [now left | right; eauto |].
    right. exists emptyNode.
    match goal with F : fItems _ "items" = _ |- _ => rewrite Hd in F; unfold fItems in F; rewrite assoc_decMembers in F;
      destruct (assoc "items" m) as [w|] eqn:Ew; [|discriminate]; unfold decField in F; change (kindOf "items") with KItems in F; cbn iota in F;
      rename F into Q end.
    destruct w as [|[]| | | |w|mm]; try discriminate.
    + rewrite (Ki w eq_refl) in Q. simpl in Q. injection Q as <-. reflexivity.
    + destruct (decodeNode (JObj mm)); inversion Q; subst. reflexivity.
  - intros o Ho d Hd. destruct (Dn o Ho d Hd) as [->|]; [exfalso|auto].
    assert (T : forall k, kindOf k = KNof -> fNof (decMembers m) k = Some o -> assoc k m = Some (JBool true)).
    { intros k K Q. rewrite Hd in Q. unfold fNof in Q. rewrite assoc_decMembers in Q.
      destruct (assoc k m) as [w|] eqn:Ew; [|discriminate]. unfold decField in Q. rewrite K in Q.
      destruct w as [|[]| | | |w|mm]; try discriminate; auto. destruct (decodeNode (JObj mm)); discriminate. }
    unfold nofFields in Ho. destruct Ho as [<-|[<-|[<-|[]]]].
    + apply Ka, T; auto.
    + apply Kb, T; auto.
    + apply Kc, T; auto.
Qed.

Theorem reread : forall j n, decodeNode j = Some n -> keepsText j -> decodeNode (encodeNode n) = Some n.
Proof.
  intros j n Hn Hk. apply encode_decode. intros c Hc. destruct (within_from _ _ Hc j Hn) as [->|(t & Ht & Hd)].
  - apply writable_empty.
  - destruct t; try discriminate.
    + injection Hd as <-. apply writable_empty.
    + eapply writable_of_text; eauto. intros mm Hm. apply Hk. eapply nested_trans; eauto.
Qed.

(* a schema using the three explicit forms named by the property *)
Definition codecDemo : json :=
  JObj [("type", JStr "object");
        ("properties", JObj [("a", JObj [("const", JNull)]);
                             ("b", JObj [("type", JArr [JStr "array"; JStr "null"]); ("prefixItems", JArr [JObj [("minimum", JInt 3)]]); ("items", JBool false)])]);
        ("additionalProperties", JBool false);
        ("enum", JArr [JInt 1; JStr "x"; JObj [("k", JArr [JNull; JBool true])]])].

Definition codecDemoFlags (n : schemaNode) : bool :=
  match sAdditionalProperties n, sProperties n with
  | Some d, Some [(_, a); (_, b)] =>
      nofFalse d && match sConst a with Some JNull => true | _ => false end && match sItems b with Some i => itDisallow i | None => false end
  | _, _ => false
  end.

Lemma codecDemo_decodes : exists n, decodeNode codecDemo = Some n /\ codecDemoFlags n = true.
Proof.
  assert (E : omap codecDemoFlags (decodeNode codecDemo) = Some true) by (vm_compute; reflexivity).
  destruct (decodeNode codecDemo) as [n|]; [|discriminate]. exists n. split; auto. now injection E.
Qed.

Fixpoint allObjs (p : list (string * json) -> bool) (j : json) : bool :=
  match j with
  | JArr l => (fix go (l : list json) := match l with [] => true | x :: r => allObjs p x && go r end) l
  | JObj m => p m && (fix go (m : list (string * json)) := match m with [] => true | (_, x) :: r => allObjs p x && go r end) m
  | _ => true
  end.

Lemma allObjs_nested : forall p j x, nested j x -> allObjs p j = true -> forall m, x = JObj m -> p m = true.
Proof.
  intros p j x H. induction H; intros Ha mm Hm.
  - subst. simpl in Ha. now apply andb_prop in Ha as [Ha _].
  - apply IHnested; auto. clear IHnested H0. simpl in Ha. induction l as [|y l IH]; [destruct H|].
    apply andb_prop in Ha as [Ha1 Ha2]. destruct H as [<-|H]; auto.
  - apply IHnested; auto. clear IHnested H0. simpl in Ha. apply andb_prop in Ha as [_ Ha]. induction m as [|[k' y] m IH]; [destruct H|].
    apply andb_prop in Ha as [Ha1 Ha2]. destruct H as [E|H]; [injection E as -> ->; auto | auto].
Qed.

Definition keepsObj (m : list (string * json)) : bool :=
  match assoc "items" m with Some (JArr (_ :: _)) => false | _ => true end &&
  match assoc "additionalProperties" m with Some (JBool true) => false | _ => true end &&
  match assoc "additionalItems" m with Some (JBool true) => false | _ => true end &&
  match assoc "unevaluatedItems" m with Some (JBool true) => false | _ => true end &&
  match assoc "type" m with Some (JStr "") => false | Some (JArr []) => false | _ => true end.

Lemma keepsText_dec : forall j, allObjs keepsObj j = true -> keepsText j.
Proof.
  intros j H m Hm. pose proof (allObjs_nested _ _ _ Hm H m eq_refl) as K. unfold keepsObj in K.
  apply andb_prop in K as [K K5]. apply andb_prop in K as [K K4]. apply andb_prop in K as [K K3]. apply andb_prop in K as [K1 K2].
  split; [intros l E; rewrite E in K1; destruct l; [reflexivity|discriminate]|].
  split; [intros E; rewrite E in K2; discriminate|].
  split; [intros E; rewrite E in K3; discriminate|].
  split; [intros E; rewrite E in K4; discriminate|].
  split; intros E; rewrite E in K5; discriminate.
Qed.

Lemma codecDemo_keeps : keepsText codecDemo.
Proof. apply keepsText_dec. vm_compute. reflexivity. Qed.

(* {"items":[{"type":"string"}]}: written back as {"items":{}}, the positional schema is lost *)
Definition itemsArrayText : json := JObj [("items", JArr [JObj [("type", JStr "string")]])].
Lemma items_array_lost : exists n n', decodeNode itemsArrayText = Some n /\ decodeNode (encodeNode n) = Some n' /\
  omap itNodes (sItems n) = Some (Some [set_sType (Some (mkMT "string" None)) emptyNode]) /\ omap itNodes (sItems n') = Some (Some []).
Proof.
  exists (set_sItems (Some (mkItems (Some emptyNode) (Some [set_sType (Some (mkMT "string" None)) emptyNode]) false)) emptyNode),
         (set_sItems (Some (mkItems (Some emptyNode) (Some []) false)) emptyNode).
  split; [vm_compute; reflexivity|]. split; [vm_compute; reflexivity|]. split; reflexivity.
Qed.

Lemma items_array_refutes : ~ (forall j n, decodeNode j = Some n -> decodeNode (encodeNode n) = Some n).
Proof.
  intros H. destruct items_array_lost as (n & n' & H1 & H2 & H3 & H4). rewrite (H _ _ H1) in H2. injection H2 as <-. rewrite H3 in H4. discriminate.
Qed.
