(* The fuel of the model does not matter: a computation that ends with some fuel ends in the same way with
   more. *)
From Coq Require Import ZArith List String Ascii Bool Lia.
From Verif Require Import Base Float64 Json Schema Util Number Gen Codec PState PFacts RefPath Merge NotMerge Parse.
Import ListNotations.
Open Scope string_scope.
Open Scope Z_scope.

Definition below {A} (m m' : P A) : Prop := forall s, m s = Timeout \/ m s = m' s.

Lemma bl_refl : forall A (m : P A), below m m.
Proof. intros A m s. auto. Qed.
Lemma bl_timeout : forall A (m : P A), below (plift Timeout) m.
Proof. intros A m s. left. reflexivity. Qed.
Lemma bl_bind : forall A B (m m' : P A) (k k' : A -> P B), below m m' -> (forall a, below (k a) (k' a)) -> below (pbind m k) (pbind m' k').
Proof.
  intros A B m m' k k' Hm Hk s. unfold pbind. destruct (Hm s) as [H|H]; rewrite H; [auto|].
  destruct (m' s) as [[a s1]| |]; auto. apply Hk.
Qed.

Create HintDb mono discriminated.
#[export] Hint Constants Opaque : mono.
#[export] Hint Variables Opaque : mono.
#[export] Hint Resolve bl_timeout : mono.

(* walk the two programs together *)
Ltac mono :=
  repeat first
  [ progress (intros)
  | match goal with |- below ?a ?b => constr_eq a b; apply bl_refl end
  | match goal with |- below (pbind _ _) (pbind _ _) => apply bl_bind end
  | solve [auto with mono nocore]
  | match goal with
    | |- below (match ?x with _ => _ end) _ => destruct x
    | |- below (if ?x then _ else _) _ => destruct x
    | |- below (let '(_, _) := ?x in _) _ => destruct x
    end ].

Section MergeMono.
Variable E : penv.
Variable rec rec' : list schemaNode -> P schemaNode.
Hypothesis Hrec : forall l, below (rec l) (rec' l).
Variable f f' : nat.
Hypothesis Hf : (f <= f')%nat.
Local Hint Resolve Hrec : mono.

Lemma bl_mergeMapLoop : forall node merged, below (mergeMapLoop rec merged node) (mergeMapLoop rec' merged node).
Proof. induction node as [|[k v] r IH]; cbn [mergeMapLoop]; mono. Qed.
Local Hint Resolve bl_mergeMapLoop : mono.
Lemma bl_mergeMap : forall a b, below (mergeMap rec a b) (mergeMap rec' a b).
Proof. unfold mergeMap. mono. Qed.
Lemma bl_mergePrefixLoop : forall merged node, below (mergePrefixLoop rec merged node) (mergePrefixLoop rec' merged node).
Proof. induction merged as [|a ra IH]; destruct node; cbn [mergePrefixLoop]; mono. Qed.
Local Hint Resolve bl_mergePrefixLoop : mono.
Lemma bl_mergePrefix : forall a b, below (mergePrefix rec a b) (mergePrefix rec' a b).
Proof. unfold mergePrefix. mono. Qed.
Lemma bl_mergeItems : forall a b, below (mergeItems rec a b) (mergeItems rec' a b).
Proof. unfold mergeItems. mono. Qed.
Lemma bl_mergeNof : forall a b, below (mergeNof rec a b) (mergeNof rec' a b).
Proof. unfold mergeNof. mono. Qed.
Lemma bl_mergePtr : forall a b, below (mergePtr rec a b) (mergePtr rec' a b).
Proof. unfold mergePtr. mono. Qed.
Local Hint Resolve bl_mergeMap bl_mergePrefix bl_mergeItems bl_mergeNof bl_mergePtr : mono.
Lemma bl_mergeInto : forall m n, below (mergeInto rec m n) (mergeInto rec' m n).
Proof. unfold mergeInto. mono. Qed.
Local Hint Resolve bl_mergeInto : mono.
End MergeMono.

Lemma bl_followRefs : forall E f f' seen r, (f <= f')%nat -> below (followRefs E f seen r) (followRefs E f' seen r).
Proof.
  induction f as [|f IH]; intros f' seen r H; [apply bl_timeout|]. destruct f' as [|f']; [lia|]. cbn [followRefs].
  apply bl_bind; [apply bl_refl|]. intros [[n name]|]; [|apply bl_refl]. destruct (mem_string name seen); [apply bl_refl|].
  destruct (sRef n); [apply IH; lia|apply bl_refl].
Qed.
Lemma bl_resolveNodeRef : forall E f f' n, (f <= f')%nat -> below (resolveNodeRef E f n) (resolveNodeRef E f' n).
Proof.
  intros E f f' n H. unfold resolveNodeRef. destruct (sRef n); [|apply bl_refl].
  apply bl_bind; [apply bl_refl|]. intros s0. destruct (resolveRef E s0 s) as [[d p]|]; [|apply bl_refl].
  destruct (hasResolved s0 d p); [apply bl_refl|]. apply bl_bind; [|intros; apply bl_refl].
  unfold resolveReference. apply bl_bind; [apply bl_followRefs; auto|intros; apply bl_refl].
Qed.

Section MergeMono2.
Variable E : penv.
Variable rec rec' : list schemaNode -> P schemaNode.
Hypothesis Hrec : forall l, below (rec l) (rec' l).
Variable f f' : nat.
Hypothesis Hf : (f <= f')%nat.
Lemma bl_mergeOne : forall m n, below (mergeOne E rec f m n) (mergeOne E rec' f' m n).
Proof.
  intros m n. unfold mergeOne. apply bl_bind; [apply bl_resolveNodeRef; auto|]. intros [n1 []].
  - apply bl_bind. { destruct (sAllOf n1); [apply Hrec|apply bl_refl]. }
    intros. apply bl_bind; [apply bl_mergeInto; auto|intros; apply bl_refl].
  - apply bl_bind; [apply bl_refl|]. intros. apply bl_bind; [apply bl_mergeInto; auto|intros; apply bl_refl].
Qed.
Lemma bl_mergeLoop : forall l m, below (mergeLoop E rec f m l) (mergeLoop E rec' f' m l).
Proof. induction l; intros m; cbn [mergeLoop]; [apply bl_refl|]. apply bl_bind; [apply bl_mergeOne|auto]. Qed.
End MergeMono2.
Lemma bl_flatten : forall E rec rec' f f' m, (forall l, below (rec l) (rec' l)) -> (f <= f')%nat ->
  below (flatten E rec f m) (flatten E rec' f' m).
Proof.
  induction f as [|f IH]; intros f' m Hrec H; [apply bl_timeout|]. destruct f' as [|f']; [lia|]. cbn [flatten].
  destruct (sAllOf m) as [[|x l]|]; try apply bl_refl.
  apply bl_bind; [apply bl_refl|]. intros s. destruct (pxMaxDepth E <? pDepth s + 1); [apply bl_refl|].
  apply bl_bind; [apply bl_refl|]. intros _. apply bl_bind; [apply Hrec|]. intros m'.
  apply bl_bind; [apply bl_refl|]. intros s'. apply bl_bind; [apply bl_refl|]. intros _. apply IH; [auto|lia].
Qed.
Lemma bl_merge : forall E f f' l, (f <= f')%nat -> below (merge E f l) (merge E f' l).
Proof.
  induction f as [|f IH]; intros f' l H; [apply bl_timeout|]. destruct f' as [|f']; [lia|]. cbn [merge].
  assert (H' : (f <= f')%nat) by lia.
  apply bl_bind; [apply bl_mergeLoop; auto|]. intros m. apply bl_flatten; auto.
Qed.

(* ------------------------------------------------------------------ negation *)
Section NotMono.
Variable E : penv.
Variable rec rec' : schemaNode -> schemaNode -> P nstate.
Hypothesis Hrec : forall n x, below (rec n x) (rec' n x).
Local Hint Resolve Hrec : mono.
Lemma bl_notSub : forall sc n x, below (notSub rec sc n x) (notSub rec' sc n x).
Proof. unfold notSub. mono. Qed.
Local Hint Resolve bl_notSub : mono.
Lemma bl_notSubPtr : forall sc n x, below (notSubPtr rec sc n x) (notSubPtr rec' sc n x).
Proof. unfold notSubPtr. mono. Qed.
Lemma bl_notItems : forall n x, below (notItems rec n x) (notItems rec' n x).
Proof. unfold notItems. mono. Qed.
Lemma bl_notNof : forall sc n x, below (notNof rec sc n x) (notNof rec' sc n x).
Proof. unfold notNof. mono. Qed.
Lemma bl_notPrefixLoop : forall n i d x, below (notPrefixLoop rec i d n x) (notPrefixLoop rec' i d n x).
Proof.
  induction n as [|a n IH]; intros i d x.
  - revert i. induction x; intros; cbn [notPrefixLoop]; [mono|]. apply bl_bind; [auto with mono|]. intros.
    apply bl_bind; [|intros; apply bl_refl]. destruct x; [apply bl_refl|]. exact (IHx (i + 1)).
  - destruct x; cbn [notPrefixLoop]; mono.
Qed.
Local Hint Resolve bl_notSubPtr bl_notItems bl_notNof bl_notPrefixLoop : mono.
Lemma bl_notPrefix : forall n x it, below (notPrefix rec n x it) (notPrefix rec' n x it).
Proof. unfold notPrefix. mono. Qed.
Local Hint Resolve bl_notPrefix : mono.
Lemma bl_notApplyArray : forall st n x, below (notApplyArray rec st n x) (notApplyArray rec' st n x).
Proof. unfold notApplyArray. mono. Qed.
Lemma bl_notPropsLoop : forall ks n x acc, below (notPropsLoop rec ks n x acc) (notPropsLoop rec' ks n x acc).
Proof. induction ks; cbn [notPropsLoop]; mono. Qed.
Local Hint Resolve bl_notPropsLoop : mono.
Lemma bl_notApplyObject : forall st n x, below (notApplyObject rec st n x) (notApplyObject rec' st n x).
Proof. unfold notApplyObject. mono. Qed.
Local Hint Resolve bl_notApplyArray bl_notApplyObject : mono.
Lemma bl_notStep : forall n x, below (notStep E rec n x) (notStep E rec' n x).
Proof. unfold notStep. mono. Qed.
End NotMono.

Lemma bl_notMerge : forall E f f' n x, (f <= f')%nat -> below (notMerge E f n x) (notMerge E f' n x).
Proof.
  induction f as [|f IH]; intros f' n x H; [apply bl_timeout|]. destruct f' as [|f']; [lia|]. cbn [notMerge].
  apply bl_notStep. intros. apply IH. lia.
Qed.
Lemma bl_applyNots : forall E f f' xs n c, (f <= f')%nat -> below (applyNots E f n c xs) (applyNots E f' n c xs).
Proof. induction xs; intros n c H; cbn [applyNots]; [apply bl_refl|]. apply bl_bind; [apply bl_notMerge; auto|auto]. Qed.

(* ------------------------------------------------------------------ parsing *)
Section ParseMono.
Variable E : penv.
Variable recN recN' recS recS' : schemaNode -> P (err gen).
Variable mrg mrg' : list schemaNode -> P schemaNode.
Variable nots nots' : schemaNode -> list schemaNode -> P nstate.
Hypothesis HN : forall n, below (recN n) (recN' n).
Hypothesis HS : forall n, below (recS n) (recS' n).
Hypothesis Hm : forall l, below (mrg l) (mrg' l).
Hypothesis Hn : forall n l, below (nots n l) (nots' n l).
Local Hint Resolve HN HS Hm Hn : mono.

Lemma bl_inScope : forall sc n srcs, below (inScope E recN sc n srcs) (inScope E recN' sc n srcs).
Proof. unfold inScope. mono. Qed.
Local Hint Resolve bl_inScope : mono.
Lemma bl_parseProps : forall l, below (parseProps E recN l) (parseProps E recN' l).
Proof. induction l as [|[k n] l IH]; cbn [parseProps]; mono. Qed.
Lemma bl_parsePatterns : forall l, below (parsePatterns E recN l) (parsePatterns E recN' l).
Proof. induction l as [|[k n] l IH]; cbn [parsePatterns]; mono. Qed.
Local Hint Resolve bl_parseProps bl_parsePatterns : mono.
Lemma bl_parseObject : forall n, below (parseObject E recN n) (parseObject E recN' n).
Proof. unfold parseObject. mono. Qed.
Lemma bl_optScope : forall sc n, below (optScope E recN sc n) (optScope E recN' sc n).
Proof. unfold optScope. mono. Qed.
Lemma bl_parseTuple : forall l i, below (parseTuple E recN i l) (parseTuple E recN' i l).
Proof. induction l; cbn [parseTuple]; mono. Qed.
Local Hint Resolve bl_parseObject bl_optScope bl_parseTuple : mono.
Lemma bl_parseContains : forall n, below (parseContains E recN mrg n) (parseContains E recN' mrg' n).
Proof. unfold parseContains. mono. Qed.
Local Hint Resolve bl_parseContains : mono.
Lemma bl_parseArray : forall n, below (parseArray E recN mrg n) (parseArray E recN' mrg' n).
Proof. unfold parseArray. mono. Qed.
Local Hint Resolve bl_parseArray : mono.
Lemma bl_parseType : forall t n, below (parseType E recN mrg t n) (parseType E recN' mrg' t n).
Proof. unfold parseType. mono. Qed.
Local Hint Resolve bl_parseType : mono.
Lemma bl_parseTypes : forall ts n, below (parseTypes E recN mrg ts n) (parseTypes E recN' mrg' ts n).
Proof. induction ts; cbn [parseTypes]; mono. Qed.
Local Hint Resolve bl_parseTypes : mono.
Lemma bl_parseMultiple : forall ts n, below (parseMultiple E recN mrg ts n) (parseMultiple E recN' mrg' ts n).
Proof. unfold parseMultiple. mono. Qed.
Lemma bl_parseAllOf : forall n l, below (parseAllOf E recN mrg n l) (parseAllOf E recN' mrg' n l).
Proof. unfold parseAllOf. mono. Qed.
Lemma bl_parseBranches : forall one l i n, below (parseBranches E recN mrg one i n l) (parseBranches E recN' mrg' one i n l).
Proof. induction l; cbn [parseBranches]; mono. Qed.
Lemma bl_mergeEach : forall l, below (mergeEach mrg l) (mergeEach mrg' l).
Proof. induction l; cbn [mergeEach]; mono. Qed.
Local Hint Resolve bl_parseMultiple bl_parseAllOf bl_parseBranches bl_mergeEach : mono.
Lemma bl_parseCombination : forall n, below (parseCombination E recN mrg n) (parseCombination E recN' mrg' n).
Proof. unfold parseCombination. mono. Qed.
Lemma bl_partitionNots : forall l i, below (partitionNots mrg i l) (partitionNots mrg' i l).
Proof. induction l; cbn [partitionNots]; mono. Qed.
Local Hint Resolve bl_parseCombination bl_partitionNots : mono.
Lemma bl_parseNot : forall n, below (parseNot recN recS mrg nots n) (parseNot recN' recS' mrg' nots' n).
Proof. unfold parseNot. mono. Qed.
Lemma bl_parseIfBody : forall f p b, below (parseIfBody E recN mrg f p b) (parseIfBody E recN' mrg' f p b).
Proof. unfold parseIfBody. mono. Qed.
Local Hint Resolve bl_parseNot bl_parseIfBody : mono.
Lemma bl_compileIf : forall n f i, below (compileIf E recN mrg n f i) (compileIf E recN' mrg' n f i).
Proof. unfold compileIf. mono. Qed.
Local Hint Resolve bl_compileIf : mono.
Lemma bl_compileIfs : forall l i n, below (compileIfs E recN mrg i n l) (compileIfs E recN' mrg' i n l).
Proof. induction l; cbn [compileIfs]; mono. Qed.
Local Hint Resolve bl_compileIfs : mono.
Lemma bl_parseIf : forall n, below (parseIf E recN recS mrg n) (parseIf E recN' recS' mrg' n).
Proof. unfold parseIf. mono. Qed.
Local Hint Resolve bl_parseIf : mono.
Lemma bl_schemaStep : forall n, below (schemaStep E recN recS mrg nots n) (schemaStep E recN' recS' mrg' nots' n).
Proof. unfold schemaStep. mono. Qed.
Lemma bl_nodeStep : forall n, below (nodeStep E recS n) (nodeStep E recS' n).
Proof. unfold nodeStep. mono. Qed.
End ParseMono.

Lemma bl_parseF : forall E f f' b n, (f <= f')%nat -> below (parseF E f b n) (parseF E f' b n).
Proof.
  induction f as [|f IH]; intros f' b n H; [apply bl_timeout|]. destruct f' as [|f']; [lia|]. cbn [parseF].
  assert (H' : (f <= f')%nat) by lia. destruct b.
  - apply bl_schemaStep; intros; auto using bl_merge, bl_applyNots.
  - apply bl_nodeStep. intros. auto.
Qed.
Lemma bl_parseDefs : forall E f f' p l, (f <= f')%nat -> below (parseDefs E f p l) (parseDefs E f' p l).
Proof.
  induction l as [|[k n] l IH]; intros H; cbn [parseDefs]; [apply bl_refl|].
  apply bl_bind; [apply bl_inScope; intros; apply bl_parseF; auto|]. intros. apply bl_bind; [auto|intros; apply bl_refl].
Qed.
Lemma bl_parseRoot : forall E f f' n, (f <= f')%nat -> below (parseRoot E f n) (parseRoot E f' n).
Proof.
  intros. unfold parseRoot. apply bl_bind; [apply bl_parseDefs; auto|]. intros. apply bl_bind; [apply bl_parseDefs; auto|].
  intros. apply bl_parseF; auto.
Qed.
Lemma bl_drain : forall E f f' k k', (f <= f')%nat -> (k <= k')%nat -> below (drain E f k) (drain E f' k').
Proof.
  induction k as [|k IH]; intros k' Hf Hk; [apply bl_timeout|]. destruct k' as [|k']; [lia|]. cbn [drain].
  apply bl_bind; [apply bl_refl|]. intros s. destruct (pQueue s); [apply bl_refl|]. apply bl_bind; [|intros; apply IH; lia].
  unfold parseNext. apply bl_bind; [apply bl_refl|]. intros _. apply bl_bind; [apply bl_refl|]. intros d.
  apply bl_bind; [|intros; apply bl_refl]. destruct d; [|apply bl_refl]. apply bl_bind; [apply bl_refl|]. intros _.
  apply bl_bind; [apply bl_parseRoot; auto|intros; apply bl_refl].
Qed.
Theorem parseDoc_mono : forall E f f' parsing rootId n, (f <= f')%nat -> parseDoc E f parsing rootId n <> Timeout ->
  parseDoc E f' parsing rootId n = parseDoc E f parsing rootId n.
Proof.
  intros E f f' parsing rootId n H Ht. unfold parseDoc in *.
  match type of Ht with (?m ?s <> _) => match goal with |- ?m' ?s' = _ => assert (B : below m m') end end.
  { apply bl_bind; [apply bl_parseRoot; auto|]. intros. apply bl_bind; [apply bl_drain; auto|intros; apply bl_refl]. }
  destruct (B (initP E parsing rootId n)) as [B1|B1]; [contradiction|]. symmetry. exact B1.
Qed.
(* two sufficient amounts of fuel give the same result *)
Lemma merge_agree : forall E f f' l s, merge E f l s <> Timeout -> merge E f' l s <> Timeout -> merge E f l s = merge E f' l s.
Proof.
  intros E f f' l s H H'. destruct (Nat.le_ge_cases f f') as [L|L].
  - destruct (bl_merge E f f' l L s); [contradiction|auto].
  - destruct (bl_merge E f' f l L s); [contradiction|auto].
Qed.
