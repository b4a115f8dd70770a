(* The direct sub-schemas of a node and a size that decreases along them.  Generated by
   tools/mknodefacts.py from the field table of Schema.v. *)
From Coq Require Import ZArith List String Bool Lia.
From Verif Require Import Base Float64 Json Schema.
Import ListNotations.
Open Scope nat_scope.

Definition onode (o : option schemaNode) : list schemaNode := match o with Some n => [n] | None => [] end.
Definition olist (o : option (list schemaNode)) : list schemaNode := match o with Some l => l | None => [] end.
Definition omaps (o : option (list (string * schemaNode))) : list schemaNode := match o with Some l => map snd l | None => [] end.
Definition nofs (o : option (nodeOrFalse schemaNode)) : list schemaNode := match o with Some d => onode (nofSchema d) | None => [] end.
Definition itemss (o : option (itemsData schemaNode)) : list schemaNode :=
  match o with Some d => onode (itNode d) ++ olist (itNodes d) | None => [] end.
Definition ifs (i : ifStmt schemaNode) : list schemaNode := onode (ifIf i) ++ onode (ifThen i) ++ onode (ifElse i).

Definition subnodes (n : schemaNode) : list schemaNode :=
  omaps (sProperties n) ++
  nofs (sAdditionalProperties n) ++
  omaps (sPatternProperties n) ++
  itemss (sItems n) ++
  onode (sContains n) ++
  olist (sPrefixItems n) ++
  nofs (sAdditionalItems n) ++
  nofs (sUnevaluatedItems n) ++
  onode (sNot n) ++
  olist (sAllOf n) ++
  olist (sAnyOf n) ++
  olist (sOneOf n) ++
  omaps (sDefs n) ++
  omaps (sDefinitions n) ++
  onode (sIf n) ++
  onode (sThen n) ++
  onode (sElse n) ++
  (map snd) (sDependentSchemas n) ++
  (flat_map ifs) (sMergedIf n) ++
  (fun l => l) (sMergedNot n).

Definition osz {A} (f : A -> nat) (o : option A) : nat := match o with Some a => f a | None => 0 end.
Definition lsz {A} (f : A -> nat) : list A -> nat := fix go l := match l with [] => 0 | x :: r => f x + go r end.
Definition kvsz {A} (f : A -> nat) : list (string * A) -> nat := fix go l := match l with [] => 0 | (_, x) :: r => f x + go r end.
Definition nofsz {A} (f : A -> nat) (d : nodeOrFalse A) : nat := match d with mkNOF s _ => osz f s end.
Definition itsz {A} (f : A -> nat) (d : itemsData A) : nat := match d with mkItems a b _ => osz f a + osz (lsz f) b end.
Definition ifsz1 {A} (f : A -> nat) (d : ifStmt A) : nat := match d with mkIf _ a b c => osz f a + (osz f b + osz f c) end.
Definition ifsz {A} (f : A -> nat) : list (ifStmt A) -> nat := fix go l := match l with [] => 0 | x :: r => ifsz1 f x + go r end.

Fixpoint nsize (n : schemaNode) : nat :=
  let '(mkNode _ _ x2 x3 x4 _ _ _ _ _ _ _ _ _ _ _ _ x17 _ _ x20 _ _ x23 x24 x25 _ _ _ x29 x30 x31 x32 _ _ x35 x36 x37 x38 x39 _ x41 x42 x43 _) := n in
  S (
    osz (kvsz nsize) x2 +
    (osz (nofsz nsize) x3 +
    (osz (kvsz nsize) x4 +
    (osz (itsz nsize) x17 +
    (osz nsize x20 +
    (osz (lsz nsize) x23 +
    (osz (nofsz nsize) x24 +
    (osz (nofsz nsize) x25 +
    (osz nsize x29 +
    (osz (lsz nsize) x30 +
    (osz (lsz nsize) x31 +
    (osz (lsz nsize) x32 +
    (osz (kvsz nsize) x35 +
    (osz (kvsz nsize) x36 +
    (osz nsize x37 +
    (osz nsize x38 +
    (osz nsize x39 +
    (kvsz nsize x41 +
    (ifsz nsize x42 +
    (lsz nsize x43)))))))))))))))))))).

Definition lsum (l : list schemaNode) : nat := lsz nsize l.

Lemma lsum_app : forall a b, lsum (a ++ b) = lsum a + lsum b.
Proof. induction a; simpl; intros; auto. unfold lsum in *. simpl. rewrite IHa. lia. Qed.
Lemma lsum_onode : forall o, lsum (onode o) = osz nsize o.
Proof. destruct o; unfold lsum; simpl; lia. Qed.
Lemma lsum_olist : forall o, lsum (olist o) = osz (lsz nsize) o.
Proof. destruct o; reflexivity. Qed.
Lemma lsum_kv : forall l, lsum (map snd l) = kvsz nsize l.
Proof. induction l as [|[k x] l]; simpl; auto. Qed.
Lemma lsum_omaps : forall o, lsum (omaps o) = osz (kvsz nsize) o.
Proof. destruct o; simpl; auto. apply lsum_kv. Qed.
Lemma lsum_nofs : forall o, lsum (nofs o) = osz (nofsz nsize) o.
Proof. destruct o as [[[s|] b]|]; unfold lsum; simpl; lia. Qed.
Lemma lsum_itemss : forall o, lsum (itemss o) = osz (itsz nsize) o.
Proof.
  destruct o as [[a b c]|]; simpl; auto. change (lsum (onode a ++ olist b) = osz nsize a + osz (lsz nsize) b).
  now rewrite lsum_app, lsum_onode, lsum_olist.
Qed.
Lemma lsum_ifs : forall l, lsum (flat_map ifs l) = ifsz nsize l.
Proof.
  induction l as [|[p a b c] l]; auto.
  change (lsum ((onode a ++ onode b ++ onode c) ++ flat_map ifs l) = osz nsize a + (osz nsize b + osz nsize c) + ifsz nsize l).
  rewrite !lsum_app, !lsum_onode, IHl. lia.
Qed.

Lemma nsize_eq : forall n, nsize n = S (lsum (subnodes n)).
Proof.
  intros [x0 x1 x2 x3 x4 x5 x6 x7 x8 x9 x10 x11 x12 x13 x14 x15 x16 x17 x18 x19 x20 x21 x22 x23 x24 x25 x26 x27 x28 x29 x30 x31 x32 x33 x34 x35 x36 x37 x38 x39 x40 x41 x42 x43 x44]. unfold subnodes. cbn [nsize sType sLength sProperties sAdditionalProperties sPatternProperties sMinProperties sMaxProperties sRequired sPattern sFormat sMinLength sMaxLength sMinimum sMaximum sExclusiveMinimum sExclusiveMaximum sMultipleOf sItems sMinItems sMaxItems sContains sMinContains sMaxContains sPrefixItems sAdditionalItems sUnevaluatedItems sUniqueItems sEnum sConst sNot sAllOf sAnyOf sOneOf sRef sId sDefs sDefinitions sIf sThen sElse sDependentRequired sDependentSchemas sMergedIf sMergedNot sConstraints].
  rewrite !lsum_app, !lsum_onode, !lsum_olist, !lsum_omaps, !lsum_nofs, !lsum_itemss, !lsum_ifs, !lsum_kv.
  unfold lsum. reflexivity.
Qed.

Lemma lsum_In : forall c l, In c l -> nsize c <= lsum l.
Proof. induction l; simpl; intros []; subst; unfold lsum in *; simpl; try lia. specialize (IHl H). lia. Qed.

Theorem subnode_smaller : forall c n, In c (subnodes n) -> nsize c < nsize n.
Proof. intros. rewrite (nsize_eq n). apply lsum_In in H. lia. Qed.

Theorem node_ind' : forall P : schemaNode -> Prop,
  (forall n, (forall c, In c (subnodes n) -> P c) -> P n) -> forall n, P n.
Proof.
  intros P H n. remember (nsize n) as k eqn:E. assert (L : nsize n <= k) by lia. clear E. revert n L.
  induction k; intros n L.
  - rewrite nsize_eq in L. lia.
  - apply H. intros c Hc. apply IHk. apply subnode_smaller in Hc. lia.
Qed.

(* a sub-schema at any depth *)
Inductive within : schemaNode -> schemaNode -> Prop :=
| within_refl : forall n, within n n
| within_step : forall n c d, In c (subnodes n) -> within c d -> within n d.

Lemma sub_sProperties : forall n c, In c (omaps (sProperties n)) -> In c (subnodes n).
Proof. intros n c H. unfold subnodes. repeat (apply in_or_app; first [left; exact H | right]); exact H. Qed.
Lemma sub_sAdditionalProperties : forall n c, In c (nofs (sAdditionalProperties n)) -> In c (subnodes n).
Proof. intros n c H. unfold subnodes. repeat (apply in_or_app; first [left; exact H | right]); exact H. Qed.
Lemma sub_sPatternProperties : forall n c, In c (omaps (sPatternProperties n)) -> In c (subnodes n).
Proof. intros n c H. unfold subnodes. repeat (apply in_or_app; first [left; exact H | right]); exact H. Qed.
Lemma sub_sItems : forall n c, In c (itemss (sItems n)) -> In c (subnodes n).
Proof. intros n c H. unfold subnodes. repeat (apply in_or_app; first [left; exact H | right]); exact H. Qed.
Lemma sub_sContains : forall n c, In c (onode (sContains n)) -> In c (subnodes n).
Proof. intros n c H. unfold subnodes. repeat (apply in_or_app; first [left; exact H | right]); exact H. Qed.
Lemma sub_sPrefixItems : forall n c, In c (olist (sPrefixItems n)) -> In c (subnodes n).
Proof. intros n c H. unfold subnodes. repeat (apply in_or_app; first [left; exact H | right]); exact H. Qed.
Lemma sub_sAdditionalItems : forall n c, In c (nofs (sAdditionalItems n)) -> In c (subnodes n).
Proof. intros n c H. unfold subnodes. repeat (apply in_or_app; first [left; exact H | right]); exact H. Qed.
Lemma sub_sUnevaluatedItems : forall n c, In c (nofs (sUnevaluatedItems n)) -> In c (subnodes n).
Proof. intros n c H. unfold subnodes. repeat (apply in_or_app; first [left; exact H | right]); exact H. Qed.
Lemma sub_sNot : forall n c, In c (onode (sNot n)) -> In c (subnodes n).
Proof. intros n c H. unfold subnodes. repeat (apply in_or_app; first [left; exact H | right]); exact H. Qed.
Lemma sub_sAllOf : forall n c, In c (olist (sAllOf n)) -> In c (subnodes n).
Proof. intros n c H. unfold subnodes. repeat (apply in_or_app; first [left; exact H | right]); exact H. Qed.
Lemma sub_sAnyOf : forall n c, In c (olist (sAnyOf n)) -> In c (subnodes n).
Proof. intros n c H. unfold subnodes. repeat (apply in_or_app; first [left; exact H | right]); exact H. Qed.
Lemma sub_sOneOf : forall n c, In c (olist (sOneOf n)) -> In c (subnodes n).
Proof. intros n c H. unfold subnodes. repeat (apply in_or_app; first [left; exact H | right]); exact H. Qed.
Lemma sub_sDefs : forall n c, In c (omaps (sDefs n)) -> In c (subnodes n).
Proof. intros n c H. unfold subnodes. repeat (apply in_or_app; first [left; exact H | right]); exact H. Qed.
Lemma sub_sDefinitions : forall n c, In c (omaps (sDefinitions n)) -> In c (subnodes n).
Proof. intros n c H. unfold subnodes. repeat (apply in_or_app; first [left; exact H | right]); exact H. Qed.
Lemma sub_sIf : forall n c, In c (onode (sIf n)) -> In c (subnodes n).
Proof. intros n c H. unfold subnodes. repeat (apply in_or_app; first [left; exact H | right]); exact H. Qed.
Lemma sub_sThen : forall n c, In c (onode (sThen n)) -> In c (subnodes n).
Proof. intros n c H. unfold subnodes. repeat (apply in_or_app; first [left; exact H | right]); exact H. Qed.
Lemma sub_sElse : forall n c, In c (onode (sElse n)) -> In c (subnodes n).
Proof. intros n c H. unfold subnodes. repeat (apply in_or_app; first [left; exact H | right]); exact H. Qed.
Lemma sub_sDependentSchemas : forall n c, In c ((map snd) (sDependentSchemas n)) -> In c (subnodes n).
Proof. intros n c H. unfold subnodes. repeat (apply in_or_app; first [left; exact H | right]); exact H. Qed.
Lemma sub_sMergedIf : forall n c, In c ((flat_map ifs) (sMergedIf n)) -> In c (subnodes n).
Proof. intros n c H. unfold subnodes. repeat (apply in_or_app; first [left; exact H | right]); exact H. Qed.
Lemma sub_sMergedNot : forall n c, In c ((fun l => l) (sMergedNot n)) -> In c (subnodes n).
Proof. intros n c H. unfold subnodes. repeat (apply in_or_app; first [left; exact H | right]); exact H. Qed.
