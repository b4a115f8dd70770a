(* What every parsing step leaves as it found it: the current path, the depth, the resolution stack and
   the current document; and what only grows: errors, references, documents. *)
From Coq Require Import ZArith List String Ascii Bool Lia.
From Verif Require Import Base Float64 Json Schema Util Number Gen Codec PState PFacts RefPath Merge NotMerge Parse.
Import ListNotations.
Open Scope string_scope.
Open Scope Z_scope.

Definition registered (s : pst) (d p : string) : Prop :=
  exists m g, assoc d (pRefs s) = Some m /\ assoc p m = Some g.

(* document ids that some fetcher accepted: results of resolveDocumentId *)
Definition permitted (E : penv) (c : string) : Prop := exists p a b, pxResolveId E p a b = Some c.
(* a fetch of document f while p is being parsed follows an acceptance of c: either by the fetcher chosen
   while p was being parsed, or earlier, p being the document now taken from the queue *)
Definition okFetch (E : penv) (x : string * string) : Prop :=
  pxFetchers E = true /\ snd x <> "" /\ exists c, snd x = refDoc c /\ ((exists a b, pxResolveId E (fst x) a b = Some c) \/ (permitted E c /\ (fst x = c \/ fst x = snd x))).

(* What holds of the documents at any time, r being the root document *)
Record docInv (E : penv) (r : string) (docs : list (string * schemaNode)) (done : list (string * bool))
  (aliases : list (string * (string * string))) (queue : list string) (log : list (string * string)) : Prop := mkDocInv {
  iRootDoc : assoc r docs <> None;
  iRootDone : assoc r done = Some true;
  iAlias : forall k d p, In (k, (d, p)) aliases -> assoc d docs <> None;
  iDocs : forall d, assoc d docs <> None -> d = r \/ exists c, permitted E c /\ d = refDoc c;
  iQueue : pxFetchers E = true -> forall d, In d queue -> exists c, permitted E c /\ (d = c \/ d = refDoc c);
  iPending : forall d, In d queue -> assoc d done <> Some true;
  iNoDup : NoDup queue;
  iLog : Forall (okFetch E) log }.

Record keeps (E : penv) (s s' : pst) : Prop := mkKeeps {
  kPath : pPath s' = pPath s;
  kDepth : pDepth s' = pDepth s;
  kStack : pStack s' = pStack s;
  kParsing : pParsing s' = pParsing s;
  kErrs : exists l, pErrs s' = (l ++ pErrs s)%list;
  kDeep : pDeep s <= pDeep s';
  kDeep' : pDeep s' <= Z.max (pDeep s) (pxMaxDepth E);
  kRefs : forall d p, registered s d p -> registered s' d p;
  kDocs : forall d n, assoc d (pDocs s) = Some n -> assoc d (pDocs s') = Some n;
  kQueue : forall d, In d (pQueue s) -> In d (pQueue s');
  kTrue : forall d, assoc d (pDone s') = Some true -> assoc d (pDone s) = Some true;
  kOther : forall d, d <> pParsing s -> assoc d (pRefs s') = assoc d (pRefs s);
  kDone : forall d, assoc d (pDone s) = Some true -> (exists n, assoc d (pDocs s) = Some n) \/ refDoc d <> d -> assoc d (pDone s') = Some true;
  kInv : forall r, docInv E r (pDocs s) (pDone s) (pAliases s) (pQueue s) (pLog s) ->
         docInv E r (pDocs s') (pDone s') (pAliases s') (pQueue s') (pLog s') }.

Lemma keeps_refl : forall E s, keeps E s s.
Proof. intros. constructor; auto; try lia. exists []. reflexivity. Qed.

Lemma keeps_trans : forall E a b c, keeps E a b -> keeps E b c -> keeps E a c.
Proof.
  intros E a b c [] []. constructor; try congruence; try lia; auto.
  - destruct kErrs0 as [l H1], kErrs1 as [l' H2]. exists (l' ++ l)%list. rewrite H2, H1, app_assoc. reflexivity.
  - intros d H. rewrite kOther1 by congruence. auto.
  - intros d H [[n Hn]|Hn]; apply kDone1; eauto.
Qed.

Definition stable (E : penv) {A} (m : P A) : Prop := forall s a s', m s = Ok (a, s') -> keeps E s s'.

Section Stable.
Variable E : penv.

Lemma st_ret : forall A (a : A), stable E (pret a).
Proof. intros A a s b s' H. apply pret_ok in H. destruct H; subst. apply keeps_refl. Qed.
Lemma st_get : stable E pget.
Proof. intros s b s' H. apply pget_ok in H. destruct H; subst. apply keeps_refl. Qed.
Lemma st_lift : forall A (r : res A), stable E (plift r).
Proof. intros A r s b s' H. unfold plift in H. destruct r; inversion H; subst. apply keeps_refl. Qed.
Lemma st_bind : forall A B (m : P A) (k : A -> P B), stable E m -> (forall a, stable E (k a)) -> stable E (pbind m k).
Proof. intros A B m k Hm Hk s b s' H. apply pbind_ok in H. destruct H as (a & s1 & H1 & H2). eapply keeps_trans; [eapply Hm|eapply Hk]; eauto. Qed.

Lemma st_mod : forall f, (forall s, keeps E s (f s)) -> stable E (pmod f).
Proof. intros f H s a s' H1. apply pmod_ok in H1. subst. apply H. Qed.

Lemma st_addErrSub : forall sub tag, stable E (addErrSub sub tag).
Proof. intros. apply st_mod. intros []. constructor; simpl; auto; try lia. eexists [_]. reflexivity. Qed.
Lemma st_addErr : forall tag, stable E (addErr tag).
Proof. intros. apply st_addErrSub. Qed.
Lemma st_warnMerge : forall f, stable E (warnMerge f).
Proof. intros. apply st_addErrSub. Qed.
Lemma st_warnField : forall f, stable E (warnField f).
Proof. intros. apply st_addErrSub. Qed.
Lemma st_warnIf : forall b f, stable E (warnIf b f).
Proof. intros [] f. apply st_warnField. apply st_ret. Qed.
Lemma st_setResolving : forall d, stable E (setResolving d).
Proof. intros. apply st_mod. intros []. constructor; simpl; auto; try lia. eexists []. reflexivity. Qed.
Lemma st_good : forall A (x : A), stable E (good x).
Proof. intros. apply st_ret. Qed.
Lemma st_bad : forall A t, stable E (@bad A t).
Proof. intros. apply st_ret. Qed.

Lemma registered_add : forall s p g d q, registered s d q ->
  registered (withRefs (massign (pParsing s) (massign p g (get_or (assoc (pParsing s) (pRefs s)) [])) (pRefs s)) s) d q.
Proof.
  intros s p g d q (m & g' & H1 & H2). unfold registered. cbn [pRefs withRefs].
  destruct (string_dec d (pParsing s)).
  - subst d. rewrite assoc_massign_same, H1. cbn [get_or].
    destruct (string_dec q p).
    + subst q. exists (massign p g m), g. split; auto. apply assoc_massign_same.
    + exists (massign p g m), g'. split; auto. rewrite assoc_massign_other; auto.
  - exists m, g'. rewrite assoc_massign_other; auto.
Qed.
Lemma st_addIdRef : forall p g, stable E (addIdRef p g).
Proof.
  intros. apply st_mod. intros s. constructor; try (destruct s; simpl; auto; lia); try (destruct s; simpl; tauto).
  - exists []. reflexivity.
  - intros. apply registered_add; auto.
  - intros d Hd. cbn [pRefs withRefs]. apply assoc_massign_other; auto.
Qed.
Lemma st_addRef : forall g, stable E (addRef g).
Proof. intros g s a s' H. unfold addRef in H. eapply st_addIdRef. exact H. Qed.

Lemma massign_In : forall A k (v : A) m x, In x (massign k v m) -> x = (k, v) \/ In x m.
Proof.
  induction m as [|[k' v'] m IH]; simpl; intros x H. { destruct H; auto. }
  destruct (String.eqb k k'); simpl in H; destruct H as [H|H]; auto. apply IH in H. tauto.
Qed.
Lemma assoc_In : forall A k (v : A) m, assoc k m = Some v -> In (k, v) m.
Proof.
  induction m as [|[k' v'] m IH]; simpl; [congruence|]. destruct (String.eqb k k') eqn:Ek.
  - apply String.eqb_eq in Ek. subst. intros H. left. congruence.
  - auto.
Qed.
(* every alias found in a document names that document *)
Lemma walkJson_inv : forall A (visit : list (string * json) -> string -> A -> A) (I : A -> Prop),
  (forall m p a, I a -> I (visit m p a)) -> forall j p a, I a -> I (walkJson visit j p a).
Proof.
  intros A visit I Hv j.
  cut ((forall p a, I a -> I (walkJson visit j p a)) /\
       match j with JArr xs => Forall (fun x => forall p a, I a -> I (walkJson visit x p a)) xs | _ => True end); [tauto|].
  induction j using json_ind'; try (split; [intros; exact H || assumption|exact Logic.I]).
  - split; [intros p a Ha; exact Ha|]. eapply Forall_impl; [|exact H]. intros x [Hx _]. exact Hx.
  - split; [|exact Logic.I]. intros p a Ha. cbn [walkJson].
    apply Hv with (m := m) (p := p) in Ha. revert Ha. generalize (visit m p a). clear a.
    induction m as [|[k v] m IHm]; intros a Ha; auto. inversion H as [|? ? Hk Hr]; subst. cbn [snd] in Hk. apply IHm; auto.
    destruct v; auto.
    + destruct Hk as [_ Hk]. generalize 0. revert a Ha. induction l as [|x l IHl]; intros a Ha i; auto.
      inversion Hk as [|? ? Hx Hl]; subst. apply IHl; auto. destruct x; auto.
    + apply Hk; auto.
Qed.

Lemma collectIds_doc : forall base d n x, In x (collectIds E base d n) -> fst (snd x) = d.
Proof.
  intros base d n. unfold collectIds.
  match goal with |- context [walkJson ?v ?j ?p ?a] =>
    assert (HI : forall x, In x (snd (walkJson v j p a)) -> fst (snd x) = d) end; [|exact HI].
  apply (walkJson_inv _ _ (fun acc => forall x, In x (snd acc) -> fst (snd x) = d)).
  - intros m p [bases result] Ha. cbn [snd] in Ha.
    destruct (assoc "$id" m) as [[]|]; auto. destruct (String.eqb s ""); auto.
    destruct (String.eqb (pxRelURI E _ s) ""); auto. destruct (String.eqb p ""); [exact Ha|].
    destruct (assoc (pxRelURI E _ s) result); [exact Ha|]. cbn [snd]. intros x Hx.
    apply massign_In in Hx. destruct Hx as [->|Hx]; auto.
  - intros x. cbn. tauto.
Qed.
Lemma addAliases_In : forall fresh old x, In x (addAliases fresh old) -> In x old \/ In x fresh.
Proof.
  unfold addAliases. induction fresh as [|[k v] f IH]; simpl; intros old x H; auto.
  apply IH in H. destruct H as [H|H]; auto. destruct (assoc k old); auto.
  apply massign_In in H. destruct H as [->|H]; auto.
Qed.

Lemma splitHash_nohash : forall r, splitHash (fst (splitHash r)) = (fst (splitHash r), "").
Proof.
  induction r as [|c r IH]; simpl; auto. destruct (Ascii.eqb c "#"%char) eqn:Ec; auto.
  destruct (splitHash r) as [d p]. cbn [fst] in *. simpl. rewrite Ec, IH. reflexivity.
Qed.
Lemma refDoc_idem : forall r, refDoc (refDoc r) = refDoc r.
Proof.
  intros r. unfold refDoc, matchRef. destruct (splitHash r) as [d p] eqn:H.
  destruct (hasChar "010" p); [reflexivity|].
  assert (Hd := splitHash_nohash r). rewrite H in Hd. cbn [fst] in Hd. rewrite Hd. reflexivity.
Qed.

(* one fetch: it is recorded, and a document that is new is stored *)
Lemma keeps_fetch : forall s c d n, d = refDoc c ->
  (forall r, docInv E r (pDocs s) (pDone s) (pAliases s) (pQueue s) (pLog s) -> okFetch E (pParsing s, d) /\ permitted E c) ->
  let s1 := withLog ((pParsing s, d) :: pLog s) s in
  keeps E s s1 /\ forall s', addDocument E d n s1 = Ok (tt, s') -> keeps E s s'.
Proof.
  intros s c d n Hd Hok s1.
  assert (K : keeps E s s1).
  { subst s1. constructor; cbn [pPath pDepth pStack pParsing pErrs pDeep pRefs pDocs pDone pAliases pQueue pLog withLog] in *; auto; try lia.
    - exists []. reflexivity.
    - intros r I. destruct (Hok r I) as [Ho _]. destruct I. constructor; auto. }
  split; [exact K|]. intros s' H. eapply keeps_trans; [exact K|]. apply pmod_ok in H. subst s'. clear K.
  destruct (assoc d (pDocs s1)) eqn:Hn; [apply keeps_refl|].
  constructor; try (destruct s; simpl; auto; lia); try (destruct s; simpl; tauto).
  - exists []. reflexivity.
  - intros d' n' H'. cbn [pDocs withAliases withDone withDocs]. rewrite assoc_massign_other; auto. congruence.
  - intros d' H'. cbn [pDone withAliases withDone withDocs] in H'. destruct (string_dec d' d) as [->|Hd']; [rewrite assoc_massign_same in H'; discriminate|rewrite assoc_massign_other in H'; auto].
  - intros d' H' Hs. cbn [pDone withAliases withDone withDocs]. rewrite assoc_massign_other; auto.
    intros ->. destruct Hs as [[n' Hs]|Hs]; [congruence|]. apply Hs. rewrite Hd. apply refDoc_idem.
  - intros r I. assert (Hc : permitted E c).
    { apply (Hok r). destruct I. constructor; auto. subst s1. cbn [pLog withLog] in *. inversion iLog0; auto. }
    destruct I. cbn [pDocs pDone pAliases pQueue pLog withAliases withDone withDocs] in *.
    assert (Hm : forall x, assoc x (pDocs s1) <> None -> assoc x (massign d n (pDocs s1)) <> None).
    { intros x Hx. destruct (string_dec x d) as [->|Hxd]; [rewrite assoc_massign_same; discriminate|rewrite assoc_massign_other; auto]. }
    assert (Hr : r <> d) by (intros ->; congruence).
    constructor; auto.
    + rewrite assoc_massign_other; auto.
    + intros k d' p Hk. apply addAliases_In in Hk.
      destruct Hk as [Hk|Hk].
      * eapply Hm, iAlias0; eauto.
      * apply collectIds_doc in Hk. cbn in Hk. subst d'. rewrite assoc_massign_same. discriminate.
    + intros x Hx. destruct (string_dec x d) as [->|Hxd]; [right; eauto|]. rewrite assoc_massign_other in Hx; auto.
    + intros x Hx. destruct (string_dec x d) as [->|Hxd]; [rewrite assoc_massign_same; discriminate|rewrite assoc_massign_other; auto].
Qed.

Lemma resolveDocRef_from : forall s doc path d p, resolveDocRef E s doc path = Good (d, p) ->
  (exists k q, In (k, (d, q)) (pAliases s)) \/ pxFetchers E = false \/ pxResolveId E (pParsing s) (scope s) doc = Some d.
Proof.
  intros s doc path d p H. unfold resolveDocRef in H.
  destruct (if String.eqb _ "" then None else _) as [[d' p']|] eqn:Ha.
  - left. destruct (String.eqb _ ""); [discriminate|]. apply assoc_In in Ha. injection H as -> <-. eauto.
  - right. destruct (pxFetchers E); [|auto]. cbn [negb] in H. right. destruct (pxResolveId E _ _ _); congruence.
Qed.

Lemma st_deferred : forall r, stable E (deferredRef E r).
Proof.
  intros r s a s' H. unfold deferredRef in H.
  destruct (String.eqb _ _); [inversion H; subst; apply keeps_refl|].
  destruct (resolveDocRef E s _ _) as [[d p]|] eqn:Hd; [|inversion H; subst; apply keeps_refl].
  inversion H; subst. destruct (_ && _) eqn:Hq; [|apply keeps_refl].
  apply andb_prop in Hq. destruct Hq as [Hq1 Hq2]. apply negb_true_iff in Hq1. apply mem_string_not_In in Hq1.
  apply resolveDocRef_from in Hd.
  constructor; try (destruct s; simpl; auto; lia); try (destruct s; simpl; tauto). exists []. reflexivity.
  { intros x Hx. cbn [pQueue withQueue]. apply in_or_app. auto. }
  intros r0 []. cbn [pDocs pDone pAliases pQueue pLog withQueue] in *.
  assert (Hnd : assoc d (pDone s) <> Some true) by (unfold needsParsing in Hq2; destruct (assoc d (pDone s)) as [[]|]; congruence).
  constructor; auto.
  - intros Hf x Hx. apply in_app_or in Hx. destruct Hx as [Hx|[<-|[]]]; auto.
    destruct Hd as [(k & q & Hd)|[Hd|Hd]]; [|congruence|].
    + apply iAlias0, iDocs0 in Hd. destruct Hd as [->|(c & Hc & ->)]; [congruence|]. eauto.
    + exists d. split; [unfold permitted; eauto|auto].
  - intros x Hx. apply in_app_or in Hx. destruct Hx as [Hx|[<-|[]]]; auto.
  - apply NoDup_rev in iNoDup0. rewrite <- (rev_involutive (pQueue s ++ [d])). apply NoDup_rev.
    rewrite rev_app_distr. cbn. constructor; auto. rewrite <- in_rev. exact Hq1.
Qed.

(* the states after a call of resolveDocument *)
Lemma resolveDocument_ok : forall r s a s', resolveDocument E r s = Ok (a, s') ->
  (s' = s /\ exists m, a = Bad m) \/ (pxFetchers E = true /\ refDoc r <> "" /\
   let s1 := withLog ((pParsing s, refDoc r) :: pLog s) s in
   ((s' = s1 /\ exists m, a = Bad m) \/ exists n, addDocument E (refDoc r) n s1 = Ok (tt, s') /\ a = Good n)).
Proof.
  intros r s a s' H. unfold resolveDocument in H.
  destruct (String.eqb (refDoc r) "") eqn:Hr; cbn [orb] in H; [inversion H; eauto|].
  destruct (pxFetchers E) eqn:Hf; cbn [negb] in H; [|inversion H; eauto].
  right. split; [reflexivity|]. split; [apply String.eqb_neq; exact Hr|]. intros s1. fold s1 in H.
  destruct (pxFetch E _ _) as [n|]; [|inversion H; eauto].
  right. exists n. apply pbind_ok in H. destruct H as ([] & s2 & H & H2). apply pret_ok in H2. destruct H2; subst. auto.
Qed.

Lemma st_resolvePath : forall r, stable E (resolvePath E r).
Proof.
  intros r s a s' H. unfold resolvePath in H.
  destruct (matchRef r); [|inversion H; subst; apply keeps_refl].
  destruct (String.eqb _ _).
  - apply bind_ok in H. destruct H as (x & _ & H). inversion H; subst. apply keeps_refl.
  - destruct (resolveDocRef E s _ _) as [[d q]|] eqn:Hd; [|inversion H; subst; apply keeps_refl].
    apply pbind_ok in H. destruct H as (doc & s1 & H1 & H).
    assert (K : keeps E s s1).
    { destruct (assoc d (pDocs s)) eqn:Hn. { apply pret_ok in H1. destruct H1; subst. apply keeps_refl. }
      apply resolveDocument_ok in H1. destruct H1 as [[-> _]|(Hf & Hne & H1)]; [apply keeps_refl|].
      apply resolveDocRef_from in Hd. cbv zeta in H1.
      assert (Ho : forall r, docInv E r (pDocs s) (pDone s) (pAliases s) (pQueue s) (pLog s) -> okFetch E (pParsing s, refDoc d) /\ permitted E d).
      { intros r0 []. destruct Hd as [(k & p0 & Hd)|[Hd|Hd]]; [|congruence|].
        - apply iAlias0 in Hd. congruence.
        - split; [split; [exact Hf|split; [exact Hne|exists d; split; [reflexivity|left; eauto]]]|unfold permitted; eauto]. }
      destruct H1 as [[-> _]|(n & H1 & _)].
      - exact (proj1 (keeps_fetch s d (refDoc d) emptyNode eq_refl Ho)).
      - apply (keeps_fetch s d (refDoc d) n eq_refl Ho) in H1. exact H1. }
    eapply keeps_trans; [exact K|]. clear K H1.
    revert H. match goal with |- ?m s1 = _ -> _ => cut (stable E m); [intros S H; eapply S; exact H|] end.
    destruct doc; [|apply st_ret]. apply st_bind. apply st_lift.
    intros [t|]; [|apply st_ret]. apply st_bind. apply st_setResolving. intros. apply st_ret.
Qed.

Lemma st_compile : forall n f, stable E (compileNode E n f).
Proof.
  intros n f s a s' H. unfold compileNode in H.
  destruct (assoc _ (pRes s)); inversion H; subst. apply keeps_refl.
  constructor; try (destruct s; simpl; auto; lia); try (destruct s; simpl; tauto). exists []. reflexivity.
Qed.
End Stable.

Create HintDb st.
#[export] Hint Resolve st_ret st_get st_lift st_addErrSub st_addErr st_warnMerge st_warnField st_warnIf st_setResolving st_good st_bad
  st_addIdRef st_addRef st_deferred st_resolvePath st_compile : st.

(* run through binds and matches *)
Ltac stab :=
  repeat first
  [ progress (intros)
  | solve [auto with st]
  | apply st_bind
  | match goal with
    | |- stable _ (match ?x with _ => _ end) => destruct x
    | |- stable _ (if ?x then _ else _) => destruct x
    | |- stable _ (let '(_, _) := ?x in _) => destruct x
    end ].

Section MergeStable.
Variable E : penv.
Variable rec : list schemaNode -> P schemaNode.
Hypothesis Hrec : forall l, stable E (rec l).
Local Hint Resolve Hrec : st.

Lemma st_mergeMapLoop : forall node merged, stable E (mergeMapLoop rec merged node).
Proof. induction node as [|[k v] r IH]; simpl; stab. Qed.
Local Hint Resolve st_mergeMapLoop : st.
Lemma st_mergeMap : forall a b, stable E (mergeMap rec a b).
Proof. unfold mergeMap. stab. Qed.
Lemma st_mergePrefixLoop : forall merged node, stable E (mergePrefixLoop rec merged node).
Proof. induction merged as [|a ra IH]; destruct node; simpl; stab. Qed.
Local Hint Resolve st_mergePrefixLoop : st.
Lemma st_mergePrefix : forall a b, stable E (mergePrefix rec a b).
Proof. unfold mergePrefix. stab. Qed.
Lemma st_mergeItems : forall a b, stable E (mergeItems rec a b).
Proof. unfold mergeItems. stab. Qed.
Lemma st_mergeNof : forall a b, stable E (mergeNof rec a b).
Proof. unfold mergeNof. stab. Qed.
Lemma st_mergePtr : forall a b, stable E (mergePtr rec a b).
Proof. unfold mergePtr. stab. Qed.
Lemma st_followRefs : forall f seen r, stable E (followRefs E f seen r).
Proof. induction f; simpl; stab. Qed.
Local Hint Resolve st_mergeMap st_mergePrefix st_mergeItems st_mergeNof st_mergePtr st_followRefs : st.
Lemma st_resolveReference : forall f r, stable E (resolveReference E f r).
Proof. unfold resolveReference. stab. Qed.
Lemma st_warnAll : forall l, stable E (warnAll l).
Proof. induction l; simpl; stab. Qed.
Local Hint Resolve st_resolveReference st_warnAll : st.
Lemma st_mergeInto : forall m n, stable E (mergeInto rec m n).
Proof. unfold mergeInto. stab. Qed.

Lemma keeps_pushed : forall s d p s', keeps E (withStack (refKey d p :: pStack s) s) s' -> keeps E s (withStack (tl (pStack s')) s').
Proof.
  intros s d p s' []. constructor; cbn [pPath pDepth pStack pParsing pErrs pDeep pRefs pDocs pDone pAliases pQueue pLog withStack] in *; auto.
  rewrite kStack0. reflexivity.
Qed.

Lemma st_mergeOne : forall f m n, stable E (mergeOne E rec f m n).
Proof.
  intros f m n s m' s' H. unfold mergeOne, resolveNodeRef in H.
  assert (Hplain : forall k s0, (let* n0 := pret (k, false) in let '(n1, resolved) := n0 in
            let* n2 := match sAllOf n1 with Some subs => if resolved : bool then rec (subs ++ [set_sAllOf None n1])%list else pret n1 | None => pret n1 end in
            let* m1 := mergeInto rec m n2 in
            if resolved then run* popRes in let* s1 := pget in run* setResolving (currentResolutionDoc s1) in pret m1 else pret m1) s0 = Ok (m', s') -> keeps E s0 s').
  { intros k s0 H0. unfold pbind at 1 in H0. cbn [pret] in H0.
    change (match sAllOf k with Some _ => pret k | None => pret k end) with (match sAllOf k with Some _ => pret k | None => pret k end) in H0.
    apply pbind_ok in H0. destruct H0 as (n2 & s2 & H1 & H0).
    assert (s2 = s0). { destruct (sAllOf k); apply pret_ok in H1; tauto. } subst s2.
    apply pbind_ok in H0. destruct H0 as (m1 & s3 & H2 & H0). apply pret_ok in H0. destruct H0; subst.
    eapply st_mergeInto; eauto. }
  destruct (sRef n) as [ref|].
  2:{ apply (Hplain n). exact H. }
  apply pbind_ok in H. destruct H as ([n1 resolved] & s1 & H1 & H).
  apply pbind_ok in H1. destruct H1 as (sg & sg' & Hg & H1). apply pget_ok in Hg. destruct Hg; subst sg sg'.
  destruct (resolveRef E s ref) as [[d p]|].
  - destruct (hasResolved s d p).
    + apply pret_ok in H1. destruct H1 as [Hp ->]. inversion Hp; subst. apply (Hplain n). exact H.
    + apply pbind_ok in H1. destruct H1 as (r & s2 & Hr & H1).
      apply st_resolveReference in Hr.
      destruct r as [t|].
      * apply pbind_ok in H1. destruct H1 as (u & s3 & Hp & H1). apply pmod_ok in Hp.
        apply pret_ok in H1. destruct H1 as [Hp' ->]. inversion Hp'; subst n1 resolved.
        eapply keeps_trans; [exact Hr|].
        apply pbind_ok in H. destruct H as (n2 & s4 & H2 & H).
        apply pbind_ok in H. destruct H as (m1 & s5 & H3 & H).
        assert (K : keeps E s3 s5).
        { eapply keeps_trans. 2:eapply st_mergeInto; exact H3.
          destruct (sAllOf t). eapply Hrec; eauto. apply pret_ok in H2. destruct H2; subst. apply keeps_refl. }
        subst s3. apply keeps_pushed in K.
        apply pbind_ok in H. destruct H as (u' & s6 & Hpop & H). apply pmod_ok in Hpop. subst s6.
        eapply keeps_trans; [exact K|]. revert H.
        generalize (withStack (tl (pStack s5)) s5). intros s7 H.
        assert (S : stable E (let* s1 := pget in run* setResolving (currentResolutionDoc s1) in pret m1)) by stab.
        eapply S. exact H.
      * eapply keeps_trans; [exact Hr|].
        apply pbind_ok in H1. destruct H1 as (u & s3 & Hp & H1). apply st_warnMerge with (E := E) in Hp.
        apply pret_ok in H1. destruct H1 as [Hp' ->]. inversion Hp'; subst n1 resolved.
        eapply keeps_trans; [exact Hp|]. apply (Hplain (set_sRef None n)). exact H.
  - apply pbind_ok in H1. destruct H1 as (u & s3 & Hp & H1). apply st_warnMerge with (E := E) in Hp.
    apply pret_ok in H1. destruct H1 as [Hp' ->]. inversion Hp'; subst n1 resolved.
    eapply keeps_trans; [exact Hp|]. apply (Hplain (set_sRef None n)). exact H.
Qed.
Local Hint Resolve st_mergeOne : st.
Lemma st_mergeLoop : forall f l m, stable E (mergeLoop E rec f m l).
Proof. induction l; simpl; stab. Qed.

Lemma keeps_depth : forall s d s', keeps E (withDepth d s) s' -> d = pDepth s + 1 -> keeps E s (withDepth (pDepth s' - 1) s').
Proof.
  intros s d s' [] ->. constructor; cbn [pPath pDepth pStack pParsing pErrs pDeep pRefs pDocs pDone pAliases pQueue pLog withDepth] in *; auto. lia.
Qed.

Lemma st_flatten : forall f m, stable E (flatten E rec f m).
Proof.
  induction f; simpl; [stab|]. intros m s a s' H.
  destruct (sAllOf m) as [[|x l]|]; try (apply pret_ok in H; destruct H; subst; apply keeps_refl).
  apply pbind_ok in H. destruct H as (sg & sg' & Hg & H). apply pget_ok in Hg. destruct Hg; subst sg sg'.
  destruct (pxMaxDepth E <? pDepth s + 1). { apply pret_ok in H. destruct H; subst. apply keeps_refl. }
  apply pbind_ok in H. destruct H as (u & s1 & H1 & H). apply pmod_ok in H1. subst s1.
  apply pbind_ok in H. destruct H as (m' & s2 & H1 & H). apply Hrec in H1.
  apply pbind_ok in H. destruct H as (sg & sg' & Hg & H). apply pget_ok in Hg. destruct Hg; subst sg sg'.
  apply pbind_ok in H. destruct H as (u' & s3 & H2 & H). apply pmod_ok in H2. subst s3.
  eapply keeps_trans; [|eapply IHf; exact H].
  eapply keeps_depth; eauto.
Qed.
End MergeStable.

Lemma st_merge : forall E f l, stable E (merge E f l).
Proof.
  induction f; simpl; intros; [apply st_lift|].
  apply st_bind. apply st_mergeLoop; auto. intros. apply st_flatten; auto.
Qed.

#[export] Hint Resolve st_merge : st.

(* ------------------------------------------------------------------ negation *)
Lemma substring_app : forall a b, substring 0 (String.length (a ++ b) - String.length b) (a ++ b) = a.
Proof.
  intros a b. rewrite append_length. replace (String.length a + String.length b - String.length b)%nat with (String.length a) by lia.
  induction a; simpl. destruct b; reflexivity. rewrite IHa. reflexivity.
Qed.

Section Paths.
Variable E : penv.
Lemma keeps_path : forall s sc s', keeps E (withPath (pPath s ++ sc) s) s' ->
  keeps E s (withPath (substring 0 (String.length (pPath s') - String.length sc) (pPath s')) s').
Proof.
  intros s sc s' []. constructor; cbn [pPath pDepth pStack pParsing pErrs pDeep pRefs pDocs pDone pAliases pQueue pLog withPath] in *; auto.
  rewrite kPath0. apply substring_app.
Qed.

(* a step between pushPath and popPath *)
Lemma st_scoped : forall A B sc (m : P A) (k : A -> P B), stable E m -> (forall a, stable E (k a)) ->
  stable E (run* pushPath sc in let* r := m in run* popPath sc in k r).
Proof.
  intros A B sc m k Hm Hk s b s' H.
  apply pbind_ok in H. destruct H as (u & s1 & H1 & H). apply pmod_ok in H1. subst s1.
  apply pbind_ok in H. destruct H as (r & s2 & H1 & H). apply Hm in H1.
  apply pbind_ok in H. destruct H as (u' & s3 & H2 & H). apply pmod_ok in H2. subst s3.
  eapply keeps_trans; [|eapply Hk; exact H]. apply keeps_path; auto.
Qed.
End Paths.

Section NotStable.
Variable E : penv.
Variable rec : schemaNode -> schemaNode -> P nstate.
Hypothesis Hrec : forall n x, stable E (rec n x).
Local Hint Resolve Hrec : st.

Lemma st_resolveBoundsInt : forall f a b c d, stable E (resolveBoundsInt f a b c d).
Proof. unfold resolveBoundsInt. stab. Qed.
Local Hint Resolve st_resolveBoundsInt : st.
Lemma st_notApplyType : forall m n x, stable E (notApplyType m n x).
Proof. unfold notApplyType. stab. Qed.
Lemma st_notApplyString : forall st n x, stable E (notApplyString E st n x).
Proof. unfold notApplyString. stab. Qed.
Lemma st_notApplyNumber : forall st n x, stable E (notApplyNumber st n x).
Proof.
  unfold notApplyNumber. intros [m c] n x.
  destruct (boundsFloat _ _ _ _ _ _ _ _ _) as [[[[mn mx] amn] amx] w]. apply st_bind; [auto with st|]. intros _.
  repeat match goal with |- stable _ (if ?b then _ else _) => destruct b end; stab.
Qed.
Lemma st_notApplyEnum : forall st n x, stable E (notApplyEnum st n x).
Proof. unfold notApplyEnum. stab. Qed.
Lemma st_notApplyConst : forall st n x, stable E (notApplyConst st n x).
Proof. unfold notApplyConst. stab. Qed.
Lemma st_notSub : forall sc n x, stable E (notSub rec sc n x).
Proof.
  intros. unfold notSub. intros s b s' H.
  apply pbind_ok in H. destruct H as (u & s1 & H1 & H). apply pmod_ok in H1. subst s1.
  apply pbind_ok in H. destruct H as ([m c] & s2 & H1 & H). apply Hrec in H1.
  apply pbind_ok in H. destruct H as (u' & s3 & H2 & H). apply pmod_ok in H2. subst s3.
  apply pret_ok in H. destruct H; subst. apply keeps_path; auto.
Qed.
Local Hint Resolve st_notSub : st.
Lemma st_notSubPtr : forall sc n x, stable E (notSubPtr rec sc n x).
Proof. unfold notSubPtr. stab. Qed.
Lemma st_notItems : forall n x, stable E (notItems rec n x).
Proof. unfold notItems. stab. Qed.
Lemma st_notNof : forall sc n x, stable E (notNof rec sc n x).
Proof. unfold notNof. stab. Qed.
Lemma st_notPrefixLoop : forall n i d x, stable E (notPrefixLoop rec i d n x).
Proof.
  induction n as [|a n IH]; intros i d x.
  - revert i. induction x; intros; simpl; [stab|]. stab.
    destruct x; [stab|]. exact (IHx (i + 1)).
  - destruct x; simpl; stab.
Qed.
Local Hint Resolve st_notSubPtr st_notItems st_notNof st_notPrefixLoop : st.
Lemma st_notPrefix : forall n x it, stable E (notPrefix rec n x it).
Proof. unfold notPrefix. stab. Qed.
Lemma st_resolveBool : forall v x, stable E (resolveBool v x).
Proof. unfold resolveBool. stab. Qed.
Local Hint Resolve st_notPrefix st_resolveBool : st.
Lemma st_notApplyArray : forall st n x, stable E (notApplyArray rec st n x).
Proof. unfold notApplyArray. stab. Qed.
Lemma st_notPropsLoop : forall ks n x acc, stable E (notPropsLoop rec ks n x acc).
Proof. induction ks; simpl; stab. Qed.
Local Hint Resolve st_notPropsLoop : st.
Lemma st_notApplyObject : forall st n x, stable E (notApplyObject rec st n x).
Proof. unfold notApplyObject. stab. Qed.
Lemma st_warnUnsupported : forall x, stable E (warnUnsupported x).
Proof. unfold warnUnsupported. intros. repeat (apply st_bind; [auto with st|intros _]). auto with st. Qed.
Local Hint Resolve st_notApplyType st_notApplyString st_notApplyNumber st_notApplyEnum st_notApplyConst st_notApplyArray st_notApplyObject st_warnUnsupported : st.
Lemma st_notStep : forall n x, stable E (notStep E rec n x).
Proof. unfold notStep. stab. Qed.
End NotStable.

Lemma st_notMerge : forall E f n x, stable E (notMerge E f n x).
Proof. induction f; simpl; intros; [apply st_lift|]. apply st_notStep; auto. Qed.
#[export] Hint Resolve st_notMerge : st.
Lemma st_applyNots : forall E f xs n c, stable E (applyNots E f n c xs).
Proof. induction xs; simpl; stab. Qed.
#[export] Hint Resolve st_applyNots : st.

(* ------------------------------------------------------------------ parsing *)
Section ParseStable.
Variable E : penv.
Variable recN recS : schemaNode -> P (err gen).
Variable mrg : list schemaNode -> P schemaNode.
Variable nots : schemaNode -> list schemaNode -> P nstate.
Hypothesis HN : forall n, stable E (recN n).
Hypothesis HS : forall n, stable E (recS n).
Hypothesis Hm : forall l, stable E (mrg l).
Hypothesis Hn : forall n l, stable E (nots n l).
Local Hint Resolve HN HS Hm Hn : st.

Lemma st_parseEnum : forall n, stable E (parseEnum E n).
Proof. unfold parseEnum. stab. Qed.
Lemma st_parseConst : forall n v, stable E (parseConst E n v).
Proof. unfold parseConst. stab. Qed.
Lemma st_parseString : forall n, stable E (parseString E n).
Proof. unfold parseString. stab. Qed.
Lemma st_parseReference : forall n, stable E (parseReference E n).
Proof. unfold parseReference. stab. Qed.
Lemma st_parseNum : forall n b, stable E (parseNum n b).
Proof. unfold parseNum. stab. Qed.

(* pushing k resolutions changes nothing but the stack *)
Lemma pushSources_keeps : forall sc srcs s k s', pushSources E sc srcs s = Ok (k, s') ->
  exists pushed, List.length pushed = k /\ pStack s' = (pushed ++ pStack s)%list /\ keeps E s (withStack (pStack s) s').
Proof.
  induction srcs as [|n r IH]; simpl; intros s k s' H.
  - apply pret_ok in H. destruct H; subst. exists []. split; [auto|split; [auto|]]. destruct s; apply keeps_refl.
  - destruct (sRef n) as [ref|]; [|apply IH; auto].
    apply pbind_ok in H. destruct H as (sg & sg' & Hg & H). apply pget_ok in Hg. destruct Hg; subst sg sg'.
    destruct (resolveRef E s ref) as [[d p]|].
    + apply pbind_ok in H. destruct H as (u & s1 & H1 & H). apply pmod_ok in H1.
      apply pbind_ok in H. destruct H as (k' & s2 & H2 & H). apply pret_ok in H. destruct H; subst k s'.
      apply IH in H2. destruct H2 as (pushed & L & St & K). subst s1. cbn [pStack withStack] in *.
      exists (pushed ++ [refKey d p])%list. split; [rewrite app_length; simpl; lia|].
      split. { rewrite St. rewrite <- app_assoc. reflexivity. }
      destruct K. constructor; cbn [pPath pDepth pStack pParsing pErrs pDeep pRefs pDocs pDone pAliases pQueue pLog withStack] in *; auto.
    + apply pbind_ok in H. destruct H as (u & s1 & H1 & H).
      assert (St1 : pStack s1 = pStack s) by (apply pmod_ok in H1; subst; reflexivity).
      apply (st_addErrSub E) in H1. apply IH in H. destruct H as (pushed & L & St & K).
      exists pushed. rewrite St1 in *. split; [auto|split; [auto|]]. eapply keeps_trans; eauto.
Qed.
Lemma popMany_ok : forall k s u s', popMany k s = Ok (u, s') -> s' = withStack (skipn k (pStack s)) s.
Proof.
  induction k; simpl; intros s u s' H.
  - apply pret_ok in H. destruct H; subst. destruct s; reflexivity.
  - apply pbind_ok in H. destruct H as (u' & s1 & H1 & H). apply pmod_ok in H1. apply IHk in H. subst. destruct s as [x0 x1 x2 x3 st]. cbn.
    destruct st; simpl; auto. rewrite skipn_nil. reflexivity.
Qed.

Lemma st_inScope : forall sc n srcs, stable E (inScope E recN sc n srcs).
Proof.
  intros sc n srcs s b s' H. unfold inScope in H.
  apply pbind_ok in H. destruct H as (u & s1 & H1 & H). apply pmod_ok in H1. subst s1.
  apply pbind_ok in H. destruct H as (k & s2 & H1 & H). apply pushSources_keeps in H1. destruct H1 as (pushed & L & St & K).
  apply pbind_ok in H. destruct H as (r & s3 & H1 & H). apply HN in H1.
  apply pbind_ok in H. destruct H as (u' & s4 & H2 & H). apply popMany_ok in H2. subst s4.
  apply pbind_ok in H. destruct H as (u'' & s5 & H2 & H). apply pmod_ok in H2. subst s5.
  apply pret_ok in H. destruct H; subst b s'.
  apply keeps_path. eapply keeps_trans; [exact K|].
  destruct H1. constructor; cbn [pPath pDepth pStack pParsing pErrs pDeep pRefs pDocs pDone pAliases pQueue pLog withStack withPath] in *; auto.
  rewrite kStack0, St. subst k. rewrite skipn_app, skipn_all, Nat.sub_diag. reflexivity.
Qed.
Local Hint Resolve st_parseEnum st_parseConst st_parseString st_parseReference st_parseNum st_inScope : st.
Lemma st_parseProps : forall l, stable E (parseProps E recN l).
Proof. induction l as [|[k n] l IH]; simpl; stab. Qed.
Lemma st_parsePatterns : forall l, stable E (parsePatterns E recN l).
Proof. induction l as [|[k n] l IH]; simpl; stab. Qed.
Local Hint Resolve st_parseProps st_parsePatterns : st.
Lemma st_parseObject : forall n, stable E (parseObject E recN n).
Proof. unfold parseObject. stab. Qed.
Lemma st_optScope : forall sc n, stable E (optScope E recN sc n).
Proof. unfold optScope. stab. Qed.
Lemma st_parseTuple : forall l i, stable E (parseTuple E recN i l).
Proof. induction l; simpl; stab. Qed.
Local Hint Resolve st_parseObject st_optScope st_parseTuple : st.
Lemma st_parseContains : forall n, stable E (parseContains E recN mrg n).
Proof. unfold parseContains. stab. Qed.
Local Hint Resolve st_parseContains : st.
Lemma st_parseArray : forall n, stable E (parseArray E recN mrg n).
Proof. unfold parseArray. stab. Qed.
Local Hint Resolve st_parseArray : st.
Lemma st_parseType : forall t n, stable E (parseType E recN mrg t n).
Proof. unfold parseType. stab. Qed.
Local Hint Resolve st_parseType : st.
Lemma st_parseTypes : forall ts n, stable E (parseTypes E recN mrg ts n).
Proof. induction ts; simpl; stab. Qed.
Local Hint Resolve st_parseTypes : st.
Lemma st_parseMultiple : forall ts n, stable E (parseMultiple E recN mrg ts n).
Proof. unfold parseMultiple. stab. Qed.
Lemma st_parseAllOf : forall n l, stable E (parseAllOf E recN mrg n l).
Proof. unfold parseAllOf. stab. Qed.
Lemma st_parseBranches : forall one l i n, stable E (parseBranches E recN mrg one i n l).
Proof. induction l; simpl; stab. Qed.
Lemma st_mergeEach : forall l, stable E (mergeEach mrg l).
Proof. induction l; simpl; stab. Qed.
Lemma st_compileBranches : forall l i, stable E (compileBranches E i l).
Proof. induction l; simpl; stab. Qed.
Local Hint Resolve st_parseMultiple st_parseAllOf st_parseBranches st_mergeEach st_compileBranches : st.
Lemma st_parseCombination : forall n, stable E (parseCombination E recN mrg n).
Proof. unfold parseCombination. stab. Qed.
Lemma st_partitionNots : forall l i, stable E (partitionNots mrg i l).
Proof.
  induction l; simpl; intros; [stab|]. apply st_scoped; [stab|]. intros.
  destruct (sNot _); [|stab]. apply st_scoped; stab.
Qed.
Local Hint Resolve st_parseCombination st_partitionNots : st.
Lemma st_parseNot : forall n, stable E (parseNot recN recS mrg nots n).
Proof. unfold parseNot. stab. Qed.
Lemma st_parseIfBody : forall f p b, stable E (parseIfBody E recN mrg f p b).
Proof. unfold parseIfBody. stab. Qed.
Local Hint Resolve st_parseNot st_parseIfBody : st.
Lemma st_compileIf : forall n f i, stable E (compileIf E recN mrg n f i).
Proof. unfold compileIf. stab. Qed.
Local Hint Resolve st_compileIf : st.
Lemma st_compileIfs : forall l i n, stable E (compileIfs E recN mrg i n l).
Proof. induction l; simpl; stab. Qed.
Local Hint Resolve st_compileIfs : st.
Lemma st_parseIf : forall n, stable E (parseIf E recN recS mrg n).
Proof. unfold parseIf. stab. Qed.
Local Hint Resolve st_parseIf : st.
Lemma st_schemaStep : forall n, stable E (schemaStep E recN recS mrg nots n).
Proof. unfold schemaStep. stab. Qed.

Lemma st_nodeStep : forall n, stable E (nodeStep E recS n).
Proof.
  intros n s b s' H. unfold nodeStep in H.
  apply pbind_ok in H. destruct H as (sg & sg' & Hg & H). apply pget_ok in Hg. destruct Hg; subst sg sg'.
  apply pbind_ok in H. destruct H as (u & s1 & H1 & H). apply pmod_ok in H1.
  apply pbind_ok in H. destruct H as (r & s2 & H2 & H).
  apply pbind_ok in H. destruct H as (sg & sg' & Hg & H). apply pget_ok in Hg. destruct Hg; subst sg sg'.
  apply pbind_ok in H. destruct H as (u' & s3 & H3 & H). apply pmod_ok in H3. apply pret_ok in H. destruct H; subst b s' s3.
  apply (keeps_depth E s (pDepth s + 1)); auto. rewrite <- H1.
  destruct (pxMaxDepth E <? pDepth s + 1) eqn:Ed. { apply pret_ok in H2. destruct H2; subst. apply keeps_refl. }
  apply Z.ltb_ge in Ed.
  apply pbind_ok in H2. destruct H2 as (u2 & s4 & H4 & H2). apply pmod_ok in H4.
  assert (keeps E s1 s4).
  { subst. constructor; cbn [pPath pDepth pStack pParsing pErrs pDeep pRefs pDocs pDone pAliases pQueue pLog withDepth withDeep] in *; auto; try lia.
    exists []. reflexivity. }
  eapply keeps_trans; [exact H|].
  revert H2. match goal with |- ?m s4 = _ -> _ => assert (S : stable E m) by stab end. apply S.
Qed.
End ParseStable.

Lemma st_parseF : forall E f b n, stable E (parseF E f b n).
Proof.
  induction f; simpl; intros; [apply st_lift|].
  destruct b; [apply st_schemaStep|apply st_nodeStep]; auto with st.
Qed.
Lemma st_parseNode : forall E f n, stable E (parseNode E f n).
Proof. intros. apply st_parseF. Qed.
#[export] Hint Resolve st_parseNode st_inScope : st.
Lemma st_parseDefs : forall E f p l, stable E (parseDefs E f p l).
Proof. induction l as [|[k n] l IH]; simpl; stab. Qed.
#[export] Hint Resolve st_parseDefs : st.
Lemma st_parseRoot : forall E f n, stable E (parseRoot E f n).
Proof. unfold parseRoot. stab. Qed.
