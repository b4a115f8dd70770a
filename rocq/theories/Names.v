(* The names under which sub-schemas are handed to the schema compiler.  Merging and negating register none;
   a schema of the fragment SpecFragment.v describes registers only names for its enum and const keywords. *)
From Coq Require Import ZArith List String Ascii Bool Lia.
From Verif Require Import Base Float64 Json Schema Util Number Gen Codec PState PFacts RefPath Merge NotMerge Parse ParseKeep.
Import ListNotations.
Open Scope string_scope.
Open Scope Z_scope.

(* ------------------------------------------------------------------ steps that register nothing *)
Definition silent {A} (m : P A) : Prop := forall s a s', m s = Ok (a, s') -> pRes s' = pRes s.

Lemma si_ret : forall A (a : A), silent (pret a).
Proof. intros A a s b s' H. apply pret_ok in H. destruct H as [_ ->]. reflexivity. Qed.
Lemma si_get : silent pget.
Proof. intros s b s' H. apply pget_ok in H. destruct H as [_ ->]. reflexivity. Qed.
Lemma si_mod : forall f, (forall s, pRes (f s) = pRes s) -> silent (pmod f).
Proof. intros f F s b s' H. apply pmod_ok in H. subst s'. apply F. Qed.
Lemma si_lift : forall A (r : res A), silent (plift r).
Proof. intros A r s a s' H. unfold plift in H. destruct r; cbn in H; inversion H. reflexivity. Qed.
Lemma si_bind : forall A B (m : P A) (k : A -> P B), silent m -> (forall a, silent (k a)) -> silent (pbind m k).
Proof.
  intros A B m k Hm Hk s b s' H. apply pbind_ok in H. destruct H as (a & s1 & H1 & H).
  rewrite (Hk a _ _ _ H). exact (Hm _ _ _ H1).
Qed.
Create HintDb si.
#[export] Hint Resolve si_ret si_get si_lift : si.
Ltac sil :=
  repeat first
  [ progress (intros)
  | solve [auto with si]
  | apply si_bind
  | apply si_mod; solve [intros; reflexivity]
  | match goal with
    | |- silent (match ?x with _ => _ end) => destruct x
    | |- silent (if ?x then _ else _) => destruct x
    | |- silent (let '(_, _) := ?x in _) => destruct x
    end ].
Lemma si_addErrSub : forall p e, silent (addErrSub p e).
Proof. unfold addErrSub. sil. Qed.
Lemma si_addErr : forall e, silent (addErr e).
Proof. unfold addErr. sil. Qed.
#[export] Hint Resolve si_addErrSub si_addErr : si.
Lemma si_warnMerge : forall k, silent (warnMerge k).
Proof. unfold warnMerge. sil. Qed.
Lemma si_warnField : forall k, silent (warnField k).
Proof. unfold warnField. sil. Qed.
Lemma si_warnIf : forall b p, silent (warnIf b p).
Proof. unfold warnIf. sil. Qed.
Lemma si_setResolving : forall d, silent (setResolving d).
Proof. unfold setResolving. sil. Qed.
Lemma si_good : forall A (a : A), silent (good a).
Proof. unfold good. sil. Qed.
Lemma si_bad : forall A m, silent (@bad A m).
Proof. unfold bad. sil. Qed.
#[export] Hint Resolve si_warnMerge si_warnField si_warnIf si_setResolving si_good si_bad : si.
Lemma si_addIdRef : forall p g, silent (addIdRef p g).
Proof. unfold addIdRef. sil. Qed.
Lemma si_addRef : forall g, silent (addRef g).
Proof. intros g s a s' H. unfold addRef in H. eapply si_addIdRef. exact H. Qed.
Lemma si_deferred : forall E r, silent (deferredRef E r).
Proof.
  intros E r s a s' H. unfold deferredRef in H. destruct (String.eqb _ _); [inversion H; reflexivity|].
  destruct (resolveDocRef E s _ _) as [[d1 p1]|]; inversion H; [|reflexivity]. destruct (_ && _); reflexivity.
Qed.
Lemma si_addDocument : forall E d n, silent (addDocument E d n).
Proof. intros. unfold addDocument. apply si_mod. intros s. destruct (assoc d (pDocs s)); reflexivity. Qed.
Lemma si_resolveDocument : forall E r, silent (resolveDocument E r).
Proof.
  intros E r s a s' H. unfold resolveDocument in H. destruct (_ || _); [inversion H; reflexivity|].
  destruct (pxFetch E _ _); [|inversion H; reflexivity].
  apply pbind_ok in H. destruct H as (u & s1 & H1 & H). apply pret_ok in H. destruct H as [_ ->].
  rewrite (si_addDocument _ _ _ _ _ _ H1). reflexivity.
Qed.
#[export] Hint Resolve si_addIdRef si_addRef si_deferred si_addDocument si_resolveDocument : si.
Lemma si_resolvePath : forall E r, silent (resolvePath E r).
Proof.
  intros E r s a s' H. unfold resolvePath in H. destruct (matchRef r); [|inversion H; reflexivity].
  destruct (String.eqb _ _).
  - apply bind_ok in H. destruct H as (x & _ & H). inversion H; reflexivity.
  - destruct (resolveDocRef E s _ _) as [[d1 p1]|]; [|inversion H; reflexivity].
    revert H. match goal with |- ?m s = _ -> _ => assert (S : silent m) by sil end. apply S.
Qed.
#[export] Hint Resolve si_resolvePath : si.

Section MergeSilent.
Variable E : penv.
Variable rec : list schemaNode -> P schemaNode.
Hypothesis Hrec : forall l, silent (rec l).
Local Hint Resolve Hrec : si.

Lemma si_mergeMapLoop : forall node merged, silent (mergeMapLoop rec merged node).
Proof. induction node as [|[k v] r IH]; simpl; sil. Qed.
Local Hint Resolve si_mergeMapLoop : si.
Lemma si_mergeMap : forall a b, silent (mergeMap rec a b).
Proof. unfold mergeMap. sil. Qed.
Lemma si_mergePrefixLoop : forall merged node, silent (mergePrefixLoop rec merged node).
Proof. induction merged as [|a ra IH]; destruct node; simpl; sil. Qed.
Local Hint Resolve si_mergePrefixLoop : si.
Lemma si_mergePrefix : forall a b, silent (mergePrefix rec a b).
Proof. unfold mergePrefix. sil. Qed.
Lemma si_mergeItems : forall a b, silent (mergeItems rec a b).
Proof. unfold mergeItems. sil. Qed.
Lemma si_mergeNof : forall a b, silent (mergeNof rec a b).
Proof. unfold mergeNof. sil. Qed.
Lemma si_mergePtr : forall a b, silent (mergePtr rec a b).
Proof. unfold mergePtr. sil. Qed.
Lemma si_followRefs : forall f seen r, silent (followRefs E f seen r).
Proof. induction f; simpl; sil. Qed.
Local Hint Resolve si_mergeMap si_mergePrefix si_mergeItems si_mergeNof si_mergePtr si_followRefs : si.
Lemma si_resolveReference : forall f r, silent (resolveReference E f r).
Proof. unfold resolveReference. sil. Qed.
Lemma si_warnAll : forall l, silent (warnAll l).
Proof. induction l; simpl; sil. Qed.
Local Hint Resolve si_resolveReference si_warnAll : si.
Lemma si_mergeInto : forall m n, silent (mergeInto rec m n).
Proof. unfold mergeInto. sil. Qed.

Local Hint Resolve si_mergeInto : si.
Lemma si_mergeOne : forall f m n, silent (mergeOne E rec f m n).
Proof. unfold mergeOne, resolveNodeRef, popRes, pushRes. sil. Qed.
Local Hint Resolve si_mergeOne : si.
Lemma si_mergeLoop : forall f l m, silent (mergeLoop E rec f m l).
Proof. induction l; simpl; sil. Qed.
Lemma si_flatten : forall f m, silent (flatten E rec f m).
Proof. induction f; simpl; sil. Qed.
End MergeSilent.

Lemma si_merge : forall E f l, silent (merge E f l).
Proof.
  induction f; simpl; intros; [apply si_lift|].
  apply si_bind. apply si_mergeLoop; auto. intros. apply si_flatten; auto.
Qed.

#[export] Hint Resolve si_merge : si.

Section NotSilent.
Variable E : penv.
Variable rec : schemaNode -> schemaNode -> P nstate.
Hypothesis Hrec : forall n x, silent (rec n x).
Local Hint Resolve Hrec : si.

Lemma si_resolveBoundsInt : forall f a b c d, silent (resolveBoundsInt f a b c d).
Proof. unfold resolveBoundsInt. sil. Qed.
Local Hint Resolve si_resolveBoundsInt : si.
Lemma si_notApplyType : forall m n x, silent (notApplyType m n x).
Proof. unfold notApplyType. sil. Qed.
Lemma si_notApplyString : forall st n x, silent (notApplyString E st n x).
Proof. unfold notApplyString. sil. Qed.
Lemma si_notApplyNumber : forall st n x, silent (notApplyNumber st n x).
Proof.
  unfold notApplyNumber. intros [m c] n x.
  destruct (boundsFloat _ _ _ _ _ _ _ _ _) as [[[[mn mx] amn] amx] w]. apply si_bind; [auto with si|]. intros _.
  repeat match goal with |- silent (if ?b then _ else _) => destruct b end; sil.
Qed.
Lemma si_notApplyEnum : forall st n x, silent (notApplyEnum st n x).
Proof. unfold notApplyEnum. sil. Qed.
Lemma si_notApplyConst : forall st n x, silent (notApplyConst st n x).
Proof. unfold notApplyConst. sil. Qed.
Lemma si_notSub : forall sc n x, silent (notSub rec sc n x).
Proof. unfold notSub, pushPath, popPath. sil. Qed.
Local Hint Resolve si_notSub : si.
Lemma si_notSubPtr : forall sc n x, silent (notSubPtr rec sc n x).
Proof. unfold notSubPtr. sil. Qed.
Lemma si_notItems : forall n x, silent (notItems rec n x).
Proof. unfold notItems. sil. Qed.
Lemma si_notNof : forall sc n x, silent (notNof rec sc n x).
Proof. unfold notNof. sil. Qed.
Lemma si_notPrefixLoop : forall n i d x, silent (notPrefixLoop rec i d n x).
Proof.
  induction n as [|a n IH]; intros i d x.
  - revert i. induction x; intros; simpl; [sil|]. sil.
    destruct x; [sil|]. exact (IHx (i + 1)).
  - destruct x; simpl; sil.
Qed.
Local Hint Resolve si_notSubPtr si_notItems si_notNof si_notPrefixLoop : si.
Lemma si_notPrefix : forall n x it, silent (notPrefix rec n x it).
Proof. unfold notPrefix. sil. Qed.
Lemma si_resolveBool : forall v x, silent (resolveBool v x).
Proof. unfold resolveBool. sil. Qed.
Local Hint Resolve si_notPrefix si_resolveBool : si.
Lemma si_notApplyArray : forall st n x, silent (notApplyArray rec st n x).
Proof. unfold notApplyArray. sil. Qed.
Lemma si_notPropsLoop : forall ks n x acc, silent (notPropsLoop rec ks n x acc).
Proof. induction ks; simpl; sil. Qed.
Local Hint Resolve si_notPropsLoop : si.
Lemma si_notApplyObject : forall st n x, silent (notApplyObject rec st n x).
Proof. unfold notApplyObject. sil. Qed.
Lemma si_warnUnsupported : forall x, silent (warnUnsupported x).
Proof. unfold warnUnsupported. intros. repeat (apply si_bind; [auto with si|intros _]). auto with si. Qed.
Local Hint Resolve si_notApplyType si_notApplyString si_notApplyNumber si_notApplyEnum si_notApplyConst si_notApplyArray si_notApplyObject si_warnUnsupported : si.
Lemma si_notStep : forall n x, silent (notStep E rec n x).
Proof. unfold notStep. sil. Qed.
End NotSilent.

Lemma si_notMerge : forall E f n x, silent (notMerge E f n x).
Proof. induction f; simpl; intros; [apply si_lift|]. apply si_notStep; auto. Qed.
#[export] Hint Resolve si_notMerge : si.
Lemma si_applyNots : forall E f xs n c, silent (applyNots E f n c xs).
Proof. induction xs; simpl; sil. Qed.
#[export] Hint Resolve si_applyNots : si.

Lemma si_scoped : forall A B sc (m : P A) (k : A -> P B), silent m -> (forall a, silent (k a)) ->
  silent (run* pushPath sc in let* r := m in run* popPath sc in k r).
Proof. unfold pushPath, popPath. sil. Qed.
Lemma si_partitionNots : forall E f l i, silent (partitionNots (merge E f) i l).
Proof. unfold pushPath, popPath. induction l; simpl; unfold pushPath, popPath; sil. Qed.
#[export] Hint Resolve si_partitionNots : si.
Lemma si_mergeEach : forall E f l, silent (mergeEach (merge E f) l).
Proof. induction l; simpl; sil. Qed.
#[export] Hint Resolve si_mergeEach : si.
Lemma si_pushSources : forall E sc srcs, silent (pushSources E sc srcs).
Proof. induction srcs; simpl; unfold pushRes; sil. Qed.
Lemma si_popMany : forall k, silent (popMany k).
Proof. induction k; simpl; unfold popRes; sil. Qed.
#[export] Hint Resolve si_pushSources si_popMany : si.

(* ------------------------------------------------------------------ steps that register enum and const only *)
Definition listing (name : string) : Prop := exists p, name = p ++ "_enum" \/ name = p ++ "_const".
Definition fresh (s s' : pst) : Prop := forall name, assoc name (pRes s') <> None -> assoc name (pRes s) <> None \/ listing name.
Lemma fresh_refl : forall s, fresh s s.
Proof. intros s name H. auto. Qed.
Lemma fresh_trans : forall a b c, fresh a b -> fresh b c -> fresh a c.
Proof. intros a b c H1 H2 name H. destruct (H2 _ H) as [X|X]; auto. Qed.
Lemma fresh_same : forall s s', pRes s' = pRes s -> fresh s s'.
Proof. intros s s' H name. rewrite H. auto. Qed.

Section Tidy.
Variable E : penv.
(* without errors, only such names are registered *)
Definition tidy {A} (m : P A) : Prop := forall s a s', m s = Ok (a, s') -> pErrs s' = [] -> fresh s s'.
Lemma errs_before : forall a b, keeps E a b -> pErrs b = [] -> pErrs a = [].
Proof. intros a b K H. destruct (kErrs _ _ _ K) as [l Hl]. rewrite H in Hl. symmetry in Hl. apply app_eq_nil in Hl. tauto. Qed.
Lemma td_silent : forall A (m : P A), silent m -> tidy m.
Proof. intros A m H s a s' R _. apply fresh_same. exact (H _ _ _ R). Qed.
Lemma td_bind : forall A B (m : P A) (k : A -> P B), tidy m -> (forall a, stable E (k a)) ->
  (forall s a s', m s = Ok (a, s') -> pErrs s' = [] -> tidy (k a)) -> tidy (pbind m k).
Proof.
  intros A B m k Hm Hs Hk s b s' H HE. apply pbind_ok in H. destruct H as (a & s1 & H1 & H).
  assert (E1 : pErrs s1 = []) by (eapply errs_before; [eapply Hs; exact H|exact HE]).
  eapply fresh_trans; [eapply Hm; eauto|]. eapply (Hk s a s1); eauto.
Qed.
Lemma td_compile : forall n f, (f = "enum" \/ f = "const") -> tidy (compileNode E n f).
Proof.
  intros n f F s a s' H _. unfold compileNode in H. set (name := scope s ++ _) in H.
  destruct (assoc name (pRes s)); inversion H; subst; [apply fresh_refl|]. intros k K. cbn [pRes withRes] in K.
  destruct (String.eqb_spec k name) as [->|D]; [|rewrite assoc_massign_other in K by auto; auto].
  right. unfold name. assert (X : forall x y, normalisePath (x ++ y) = normalisePath x ++ normalisePath y).
  { induction x; intros; cbn; [reflexivity|]. rewrite IHx. reflexivity. }
  exists (scope s ++ normalisePath (pPath s)). rewrite !X.
  assert (Y : forall x y z, x ++ y ++ z = (x ++ y) ++ z) by (induction x; intros; cbn; congruence).
  destruct F as [->| ->]; [left|right]; rewrite Y; reflexivity.
Qed.
End Tidy.
