(* Parsing ends for schemas whose references are plain alternatives to a schema. *)
From Coq Require Import ZArith List String Ascii Bool Lia.
From Verif Require Import Base Float64 Json Schema NodeFacts Util Number Gen Codec PState PFacts RefPath Merge NotMerge Parse ParseKeep MergeFacts MergeProps FuelMono DocProps Terminate SpecParse.
Import ListNotations.
Open Scope string_scope.
Open Scope Z_scope.

Lemma settles_nr : forall n, nr n -> settles n.
Proof. exact settles_free. Qed.
(* the sub-schemas a typed generator is made of *)
Definition kids (n : schemaNode) : list schemaNode :=
  (omaps (sProperties n) ++ omaps (sPatternProperties n) ++ nofs (sAdditionalProperties n) ++ itemss (sItems n) ++
   olist (sPrefixItems n) ++ nofs (sAdditionalItems n) ++ nofs (sUnevaluatedItems n))%list.
Definition kidsSettle (n : schemaNode) : Prop := forall c, In c (kids n) -> settles c.

#[export] Hint Resolve bl_parseF bl_applyNots bl_inScope bl_parseProps bl_parsePatterns bl_parseObject bl_optScope bl_parseTuple bl_parseContains bl_parseArray
  bl_parseType bl_parseTypes bl_parseMultiple bl_parseAllOf bl_parseBranches bl_mergeEach bl_parseCombination bl_partitionNots bl_parseNot bl_parseIfBody
  bl_compileIf bl_compileIfs bl_parseIf bl_schemaStep : mono.
#[export] Hint Resolve st_parseF st_parseProps st_parsePatterns st_optScope st_parseTuple st_parseContains st_parseBranches st_mergeEach st_compileBranches
  st_partitionNots st_parseIfBody st_compileIf st_compileIfs st_parseType st_parseTypes : st.

Lemma nto_good : forall A (a : A), nto (good a). Proof. intros. apply nto_pret. Qed.
Lemma nto_bad : forall A t, nto (@bad A t). Proof. intros. apply nto_pret. Qed.
#[export] Hint Resolve nto_good nto_bad : nto.
Lemma nto_compile : forall E n f, nto (compileNode E n f).
Proof. intros E n f s. unfold compileNode. destruct (match assoc _ _ with Some _ => _ | None => _ end). discriminate. Qed.
#[export] Hint Resolve nto_compile : nto.
Lemma nto_deferred : forall E r, nto (deferredRef E r).
Proof. intros E r s. unfold deferredRef. destruct (String.eqb _ _); [discriminate|]. destruct (resolveDocRef _ _ _ _) as [[]|]; discriminate. Qed.
#[export] Hint Resolve nto_deferred : nto.
Lemma nto_pushSources : forall E sc l, nto (pushSources E sc l).
Proof.
  induction l as [|n l IH]; cbn [pushSources]; notime.
  intros s9. unfold pushRes. discriminate.
Qed.
Lemma nto_popMany : forall k, nto (popMany k).
Proof. induction k as [|k IH]; cbn [popMany]; notime. intros s9. unfold popRes. discriminate. Qed.
#[export] Hint Resolve nto_pushSources nto_popMany : nto.
Lemma nto_parseEnum : forall E n, nto (parseEnum E n). Proof. intros. unfold parseEnum. notime. Qed.
Lemma nto_parseConst : forall E n v, nto (parseConst E n v). Proof. intros. unfold parseConst. notime. Qed.
Lemma nto_parseString : forall E n, nto (parseString E n). Proof. intros. unfold parseString. notime. Qed.
Lemma nto_parseReference : forall E n, nto (parseReference E n). Proof. intros. unfold parseReference. notime. Qed.
Lemma nto_parseNum : forall n b, nto (parseNum n b).
Proof. intros. unfold parseNum. destruct (parseNumber n b) as [[]|]; notime. Qed.
#[export] Hint Resolve nto_parseEnum nto_parseConst nto_parseString nto_parseReference nto_parseNum : nto.
Lemma nto_compileBranches : forall E l i, nto (compileBranches E i l).
Proof. induction l as [|n l IH]; intros i; cbn [compileBranches]; notime. Qed.
#[export] Hint Resolve nto_compileBranches : nto.

Section Ends.
Variable E : penv.
Variable D : Z.
Hypothesis recT : forall n s, settles n -> pDepth s = D -> tot (fun f => parseF E f false n) s.

Definition ends {A} (m : nat -> P A) : Prop := forall s, pDepth s = D -> tot m s.
Lemma ends_bind : forall A B (m : nat -> P A) (k : nat -> A -> P B), grows m -> (forall a, grows (fun f => k f a)) -> (forall f, stable E (m f)) -> ends m ->
  (forall f a s s1, m f s = Ok (a, s1) -> ends (fun f => k f a)) -> ends (fun f => pbind (m f) (k f)).
Proof.
  intros A B m k Gm Gk St Hm Hk s Hs. apply tot_bind; auto. intros f a s1 H. eapply Hk; [exact H|]. apply St in H. rewrite (kDepth _ _ _ H). exact Hs.
Qed.
Lemma ends_nto : forall A (m : P A), nto m -> ends (fun _ => m).
Proof. intros A m H s _. apply tot_nto. exact H. Qed.
Ltac eb := apply ends_bind; [let a := fresh in let b := fresh in let c := fresh in intros a b c; mono|let z := fresh in let a := fresh in let b := fresh in let c := fresh in intros z a b c; mono|let a := fresh in intros a; auto with st| |].

Lemma inScope_ends : forall sc n srcs, settles n -> ends (fun f => inScope E (parseF E f false) sc n srcs).
Proof.
  intros sc n srcs Hn s Hs. unfold inScope.
  apply tot_bind; [intros f f' Hf; mono|intros a f f' Hf; mono|apply tot_nto; auto with nto|intros _ u s1 H1].
  assert (D1 : pDepth s1 = D) by (unfold pushPath in H1; apply pmod_ok in H1; subst s1; exact Hs).
  apply tot_bind; [intros f f' Hf; mono|intros a f f' Hf; mono|apply tot_nto; auto with nto|intros _ k s2 H2].
  assert (D2 : pDepth s2 = D) by (revert H2; generalize sc; clear - D1; revert k s1 s2 D1; induction srcs as [|x l IH]; intros k s1 s2 D1 sc H; cbn [pushSources] in H;
    [apply pret_ok in H; destruct H as [_ ->]; auto|]; destruct (sRef x) as [r|]; [|eapply IH; [|exact H]; auto];
    apply pbind_ok in H; destruct H as (q & t & Hq & H); apply pget_ok in Hq; destruct Hq as [-> ->];
    destruct (resolveRef E s1 r) as [[d p]|]; apply pbind_ok in H; destruct H as (u & t & Hu & H);
    [apply pbind_ok in H; destruct H as (v & t' & Hv & H); apply pret_ok in H; destruct H as [_ ->]; eapply IH; [|exact Hv]
    |eapply IH; [|exact H]]; [unfold pushRes in Hu|unfold addErrSub in Hu]; apply pmod_ok in Hu; subst t; exact D1).
  apply tot_bind; [intros f f' Hf; mono|intros a f f' Hf; mono|apply recT; auto|intros _ r s3 _].
  apply tot_nto. notime.
Qed.
Lemma props_ends : forall l, (forall c, In c (map snd l) -> settles c) -> ends (fun f => parseProps E (parseF E f false) l).
Proof.
  induction l as [|[k n] l IH]; intros H; cbn [parseProps]; [apply ends_nto; notime|].
  eb. { apply inScope_ends. apply H. left. auto. }
  intros _ g _ _ _. eb; [apply IH; intros; apply H; right; auto|]. intros. apply ends_nto. notime.
Qed.
Lemma patterns_ends : forall l, (forall c, In c (map snd l) -> settles c) -> ends (fun f => parsePatterns E (parseF E f false) l).
Proof.
  induction l as [|[k n] l IH]; intros H; cbn [parsePatterns]; [apply ends_nto; notime|].
  eb. { apply inScope_ends. apply H. left. auto. }
  intros _ g _ _ _. cbv zeta. eb; [|apply ends_nto; notime|]. { destruct (pxPropRegexOk E k); auto with st. }
  intros _ g0 _ _ _. eb; [apply IH; intros; apply H; right; auto|]. intros. apply ends_nto. notime.
Qed.
Lemma optScope_ends : forall sc n, (forall c, In c (onode n) -> settles c) -> ends (fun f => optScope E (parseF E f false) sc n).
Proof.
  intros sc [n|] H; cbn [optScope]; [|apply ends_nto; notime]. eb; [apply inScope_ends; apply H; left; auto|]. intros. apply ends_nto. notime.
Qed.
Lemma tuple_ends : forall l i, (forall c, In c l -> settles c) -> ends (fun f => parseTuple E (parseF E f false) i l).
Proof.
  induction l as [|n l IH]; intros i H; cbn [parseTuple]; [apply ends_nto; notime|].
  eb; [apply inScope_ends; apply H; left; auto|]. intros _ [g|e] _ _ _; [|apply ends_nto; notime].
  eb; [apply IH; intros; apply H; right; auto|]. intros. apply ends_nto. notime.
Qed.
Lemma kid : forall n c, kidsSettle n -> In c (kids n) -> settles c. Proof. auto. Qed.
Ltac kidIn := unfold kids; repeat (apply in_or_app; first [left; assumption | right]); assumption.
Lemma object_ends : forall n, kidsSettle n -> ends (fun f => parseObject E (parseF E f false) n).
Proof.
  intros n K. unfold parseObject. cbv zeta. do 5 (match goal with |- ends (fun f => if ?b then _ else _) => destruct b; [apply ends_nto; notime|] end).
  eb. { apply patterns_ends. intros c Hc. apply K. assert (In c (omaps (sPatternProperties n))) by (destruct (sPatternProperties n); auto). kidIn. }
  intros _ ps _ _ _. eb. { apply props_ends. intros c Hc. apply K. assert (In c (omaps (sProperties n))) by (destruct (sProperties n); auto). kidIn. }
  intros _ qs _ _ _. eb.
  { destruct (if nofFalse _ then _ else _); stab. }
  { assert (G : forall c, In c (onode (if nofFalse (get_or (sAdditionalProperties n) (mkNOF None false)) then None else nofSchema (get_or (sAdditionalProperties n) (mkNOF None false)))) -> settles c).
    { intros c Hc. apply K. assert (In c (nofs (sAdditionalProperties n))); [|kidIn].
      destruct (sAdditionalProperties n) as [[o b]|]; cbn [get_or nofFalse nofSchema nofs] in *; [destruct b|]; try contradiction; auto. }
    destruct (if nofFalse _ then _ else _) as [sub|]; [|apply ends_nto; notime].
    eb; [apply inScope_ends; apply G; left; auto|]. intros. apply ends_nto. notime. }
  intros. apply ends_nto. notime.
Qed.
(* contains: no references in it nor in the items it is merged with *)
Definition containsOk (n : schemaNode) : Prop := sContains n = None \/ nr n.
Lemma contains_ends : forall n, containsOk n -> ends (fun f => parseContains E (parseF E f false) (merge E f) n).
Proof.
  intros n [H|H]; unfold parseContains; [rewrite H; apply ends_nto; notime|].
  apply nr_fields in H. destruct H as [_ H]. unfold eachField in H. assert (HC : nrs (onode (sContains n))) by tauto. assert (HI : nrs (itemss (sItems n))) by tauto. clear H.
  destruct (sContains n) as [c|]; [|apply ends_nto; notime]. assert (Hc : nr c) by (apply HC; left; auto).
  destruct (sItems n) as [d|].
  - destruct (itNode d) as [it|] eqn:Ei.
    + assert (Hit : nr it) by (apply HI; cbn [itemss]; rewrite Ei; left; auto).
      intros s Hs. apply tot_bind; [intros f f' Hf; mono|intros z f f' Hf; mono| |].
      * apply tot_bind; [intros f f' Hf; mono|intros z f f' Hf; mono|apply merge_tot; intros x [<-|[<-|[]]]; auto|intros; apply tot_nto; notime].
      * intros f m s1 H. apply pbind_ok in H. destruct H as (m0 & s0 & H0 & H). apply pret_ok in H. destruct H as [-> ->].
        pose proof (st_merge E f _ _ _ _ H0) as K. apply merge_fine in H0; [|intros x [<-|[<-|[]]]; auto]. destruct H0 as [Hm _].
        apply optScope_ends; [|rewrite (kDepth _ _ _ K); auto]. intros x [<-|[]]. apply settles_nr. apply nr_fields in Hm. apply nr_fields.
        destruct Hm as [R Hm]. split; [exact R|]. unfold eachField in *. assert (nrs (onode (@None schemaNode))) by apply nrs_nil. tauto.
    + intros s Hs. apply tot_bind; [intros f f' Hf; mono|intros z f f' Hf; mono|apply tot_nto; notime|]. intros _ a s1 H. apply pret_ok in H. destruct H as [-> ->].
      apply optScope_ends; auto. intros x [<-|[]]. apply settles_nr; auto.
  - intros s Hs. apply tot_bind; [intros f f' Hf; mono|intros z f f' Hf; mono|apply tot_nto; notime|]. intros _ a s1 H. apply pret_ok in H. destruct H as [-> ->].
      apply optScope_ends; auto. intros x [<-|[]]. apply settles_nr; auto.
Qed.
Lemma array_ends : forall n, kidsSettle n -> containsOk n -> ends (fun f => parseArray E (parseF E f false) (merge E f) n).
Proof.
  intros n K C. unfold parseArray. cbv zeta. do 5 (match goal with |- ends (fun f => if ?b then _ else _) => destruct b; [apply ends_nto; notime|] end).
  eb. { apply optScope_ends. intros c Hc. apply K. assert (In c (itemss (sItems n))); [|kidIn].
        destruct (sItems n) as [[a l b]|]; [|contradiction]. cbn [itDisallow itNode] in Hc. destruct b; [contradiction|]. cbn [itemss]. apply in_or_app. auto. }
  intros _ [it|e] _ _ _; [|apply ends_nto; notime].
  eb. { apply optScope_ends. intros c Hc. apply K. assert (In c (nofs (sAdditionalItems n))); [|kidIn]. destruct (sAdditionalItems n) as [[o b]|]; auto. }
  intros _ [ad|e] _ _ _; [|apply ends_nto; notime].
  eb. { apply contains_ends; auto. }
  intros _ [ct|e] _ _ _; [|apply ends_nto; notime].
  eb. { apply tuple_ends. intros c Hc. apply K. unfold tupleNodes in Hc.
        assert (In c (olist (sPrefixItems n)) \/ In c (itemss (sItems n))) as [H|H]; [|kidIn|kidIn].
        destruct (sPrefixItems n) as [[|x r]|]; auto; destruct (sItems n) as [[a l b]|]; auto; right; cbn [itemss itNodes] in *; apply in_or_app; right; destruct l; auto. }
  intros _ [tu|e] _ _ _; [|apply ends_nto; notime].
  eb. { apply optScope_ends. intros c Hc. apply K. assert (In c (nofs (sUnevaluatedItems n))); [|kidIn].
        destruct (sUnevaluatedItems n) as [[o b]|]; [|contradiction]. cbn [nofFalse nofSchema] in Hc. destruct b; [contradiction|]. auto. }
  intros _ [un|e] _ _ _; apply ends_nto; notime.
Qed.
Lemma type_ends : forall t n, kidsSettle n -> containsOk n -> ends (fun f => parseType E (parseF E f false) (merge E f) t n).
Proof.
  intros t n K C. unfold parseType. destruct (String.eqb t "object"); [apply object_ends; auto|]. destruct (String.eqb t "array"); [apply array_ends; auto|].
  destruct (String.eqb t "number"); [apply ends_nto; notime|]. destruct (String.eqb t "integer"); [apply ends_nto; notime|].
  destruct (String.eqb t "string"); [apply ends_nto; notime|]. destruct (String.eqb t "boolean"); apply ends_nto; notime.
Qed.
Lemma types_ends : forall ts n, kidsSettle n -> containsOk n -> ends (fun f => parseTypes E (parseF E f false) (merge E f) ts n).
Proof.
  induction ts as [|t ts IH]; intros n K C; cbn [parseTypes]; [apply ends_nto; notime|].
  eb; [apply type_ends; auto|]. intros _ g0 _ _ _. eb; [apply IH; auto|]. intros. apply ends_nto. notime.
Qed.
Lemma multiple_ends : forall ts n, kidsSettle n -> containsOk n -> ends (fun f => parseMultiple E (parseF E f false) (merge E f) ts n).
Proof. intros ts n K C. unfold parseMultiple. eb; [apply types_ends; auto|]. intros. apply ends_nto. notime. Qed.

Lemma merge_ends : forall l, nrs l -> ends (fun f => merge E f l).
Proof. intros l H s _. apply merge_tot. exact H. Qed.
Lemma allOf_ends : forall n l, nr n -> sAllOf n = Some l -> ends (fun f => parseAllOf E (parseF E f false) (merge E f) n l).
Proof.
  intros n l Hn A. unfold parseAllOf. destruct (residual n l Hn A) as [R _]. eb; [apply merge_ends; auto|].
  intros f m s s1 H. apply merge_fine in H; auto. destruct H as [H _]. eb; [apply inScope_ends; apply settles_nr; auto|]. intros. apply ends_nto. notime.
Qed.
Lemma nr_drop : forall n, nr n -> nr (set_sOneOf None n) /\ nr (set_sAnyOf None n).
Proof.
  intros n H. apply nr_fields in H. destruct H as [R H]. unfold eachField in H. assert (N : nrs (olist (@None (list schemaNode)))) by apply nrs_nil.
  split; apply nr_fields; (split; [exact R|]); unfold eachField; tauto.
Qed.
Lemma branches_ends : forall one l i n, nr n -> nrs l -> ends (fun f => parseBranches E (parseF E f false) (merge E f) one i n l).
Proof.
  induction l as [|x l IH]; intros i n Hn Hl; cbn [parseBranches]; [apply ends_nto; notime|]. apply nrs_cons in Hl. destruct Hl as [Hx Hl].
  eb; [apply merge_ends; intros c [<-|[]]; auto|]. intros f b s s1 H. apply merge_fine in H; [|intros c [<-|[]]; auto]. destruct H as [Hb _]. cbv zeta.
  assert (Hb' : nr (if one then set_sOneOf None b else set_sAnyOf None b)) by (destruct (nr_drop b Hb); destruct one; auto).
  set (b' := if one then _ else _) in *. clearbody b'. clear f s s1.
  eb; [apply merge_ends; intros c [<-|[<-|[]]]; auto|]. intros f m s s1 H. apply merge_fine in H; [|intros c [<-|[<-|[]]]; auto]. destruct H as [Hm _]. clear f s s1.
  eb; [apply inScope_ends; apply settles_nr; auto|]. intros _ g _ _ _.
  eb; [|apply ends_nto; notime|]. { destruct (isBad g); auto with st. } intros _ _ _ _ _.
  eb; [apply IH; auto|]. intros. apply ends_nto. notime.
Qed.
Lemma mergeEach_ends : forall l, nrs l -> ends (fun f => mergeEach (merge E f) l).
Proof.
  induction l as [|x l IH]; intros Hl; cbn [mergeEach]; [apply ends_nto; notime|]. apply nrs_cons in Hl. destruct Hl as [Hx Hl].
  eb; [apply merge_ends; intros c [<-|[]]; auto|]. intros _ g0 _ _ _. eb; [apply IH; auto|]. intros. apply ends_nto. notime.
Qed.
Lemma nr_or_list : forall o, nrs (olist o) -> nrs (get_or o []).
Proof. intros [l|] H; auto using nrs_nil. Qed.
Lemma combination_ends : forall n, nr n -> ends (fun f => parseCombination E (parseF E f false) (merge E f) n).
Proof.
  intros n Hn. unfold parseCombination. assert (H := Hn). apply nr_fields in H. destruct H as [_ H]. unfold eachField in H.
  assert (HO : nrs (get_or (sOneOf n) [])) by (apply nr_or_list; tauto). assert (HA : nrs (get_or (sAnyOf n) [])) by (apply nr_or_list; tauto). clear H. cbv zeta.
  eb. { apply branches_ends; auto. destruct (get_or (sOneOf n) []); auto. }
  intros _ gs _ _ _. destruct (get_or (sOneOf n) []) as [|a [|b l]]; try (apply ends_nto; notime; fail).
  eb; [apply mergeEach_ends; auto|]. intros _ ms _ _ _. apply ends_nto. notime.
Qed.
Lemma partition_ends : forall l i, nrs l -> ends (fun f => partitionNots (merge E f) i l).
Proof.
  induction l as [|x l IH]; intros i Hl; cbn [partitionNots]; [apply ends_nto; notime|]. apply nrs_cons in Hl. destruct Hl as [Hx Hl]. cbv zeta.
  intros s Hs. apply tot_bind; [intros f f' Hf; mono|intros z f f' Hf; mono|apply tot_nto; notime|intros _ u s1 H1].
  assert (D1 : pDepth s1 = D) by (unfold pushPath in H1; apply pmod_ok in H1; subst s1; exact Hs). clear H1.
  apply tot_bind; [intros f f' Hf; mono|intros z f f' Hf; mono| |intros f0 fl s2 H2].
  { apply merge_tot. intros c [<-|[<-|[]]]; auto using nr_empty. }
  assert (D2 : pDepth s2 = D) by (apply st_merge in H2; rewrite (kDepth _ _ _ H2); auto).
  apply merge_fine in H2; [|intros c [<-|[<-|[]]]; auto using nr_empty]. destruct H2 as [Hfl _].
  apply tot_bind; [intros f f' Hf; mono|intros z f f' Hf; mono|apply tot_nto; notime|intros _ u2 s3 H3].
  assert (D3 : pDepth s3 = D) by (unfold popPath in H3; apply pmod_ok in H3; subst s3; exact D2). clear H3.
  destruct (sNot fl) as [inner|] eqn:Ei.
  - assert (Hin : nr inner) by (apply (nr_sub fl); auto; apply sub_sNot; rewrite Ei; left; auto).
    apply tot_bind; [intros f f' Hf; mono|intros z f f' Hf; mono|apply tot_nto; notime|intros _ u4 s4 H4].
    assert (D4 : pDepth s4 = D) by (unfold pushPath in H4; apply pmod_ok in H4; subst s4; exact D3). clear H4.
    apply tot_bind; [intros f f' Hf; mono|intros z f f' Hf; mono| |intros f5 fi s5 H5].
    { apply merge_tot. intros c [<-|[<-|[]]]; auto using nr_empty. }
    assert (D5 : pDepth s5 = D) by (apply st_merge in H5; rewrite (kDepth _ _ _ H5); auto).
    apply tot_bind; [intros f f' Hf; mono|intros z f f' Hf; mono|apply tot_nto; notime|intros _ u6 s6 H6].
    assert (D6 : pDepth s6 = D) by (unfold popPath in H6; apply pmod_ok in H6; subst s6; exact D5). clear H6.
    apply tot_bind; [intros f f' Hf; mono|intros z f f' Hf; mono|apply IH; auto|intros; apply tot_nto; notime].
  - apply tot_bind; [intros f f' Hf; mono|intros z f f' Hf; mono|apply IH; auto|intros; apply tot_nto; notime].
Qed.
Ltac step H a := apply pbind_ok in H; let t := fresh "t" in let K := fresh "K" in destruct H as (a & t & K & H).
Lemma partition_fine : forall f l i s p s', nrs l -> partitionNots (merge E f) i l s = Ok (p, s') ->
  nrs (fst p) /\ nrs (snd p) /\ (wts (snd p) + List.length l <= lsum l)%nat.
Proof.
  induction l as [|x l IH]; intros i s p s' Hl H; cbn [partitionNots] in H.
  - apply pret_ok in H. destruct H as [-> _]. cbn. auto using nrs_nil.
  - apply nrs_cons in Hl. destruct Hl as [Hx Hl]. cbv zeta in H. step H u1. step H fl. step H u2.
    apply merge_fine in K0; [|intros c [<-|[<-|[]]]; auto using nr_empty]. destruct K0 as [Hfl Sfl]. unfold wts in Sfl. cbn [lsz] in Sfl.
    change (wt emptyNode) with O in Sfl. rewrite lsum_cons, size_wt. cbn [List.length]. destruct (sNot fl) as [inner|] eqn:Ei.
    + assert (Hsub : In inner (subnodes fl)) by (apply sub_sNot; rewrite Ei; left; auto).
      assert (Hin : nr inner) by (apply (nr_sub fl); auto). apply sub_lt in Hsub.
      step H u3. step H fi. step H u4. step H q. apply pret_ok in H. destruct H as [-> _].
      apply merge_fine in K2; [|intros c [<-|[<-|[]]]; auto using nr_empty]. destruct K2 as [Hfi Sfi]. unfold wts in Sfi. cbn [lsz] in Sfi.
      change (wt emptyNode) with O in Sfi. apply IH in K4; auto. destruct K4 as (A & B & C). cbn [fst snd]. split; [auto|]. split; [apply nrs_cons; auto|].
      change (wts (fi :: snd q)) with (wt fi + wts (snd q))%nat. lia.
    + step H q. apply pret_ok in H. destruct H as [-> _]. apply IH in K0; auto. destruct K0 as (A & B & C). cbn [fst snd]. split; [apply nrs_cons; auto|]. split; [auto|]. lia.
Qed.

(* one step of parseSchemaNode *)
Definition stepAt (f : nat) (n : schemaNode) : P (err gen) :=
  schemaStep E (parseF E f false) (parseF E f true) (merge E f) (fun n => applyNots E f n emptyColl) n.
Lemma step_ends : forall n, ends (fun f => stepAt f n) -> ends (fun f => parseF E f true n).
Proof.
  intros n H s Hs. apply (tot_le _ (fun f => stepAt f n)); [|apply H; auto]. intros f. exists (S f). apply bl_refl.
Qed.
Lemma nr_kids : forall n, nr n -> kidsSettle n /\ containsOk n.
Proof.
  intros n H. split; [|right; auto]. intros c Hc. apply settles_nr. apply nr_fields in H. destruct H as [_ H]. unfold eachField, nrs in H. unfold kids in Hc.
  repeat (apply in_app_or in Hc; destruct Hc as [Hc|Hc]); destruct H as (H1 & H2 & H3 & H4 & H5 & H6 & H7 & H8 & _); auto.
Qed.
Definition bare (n : schemaNode) : Prop :=
  sAllOf n = None /\ sAnyOf n = None /\ sOneOf n = None /\ sNot n = None /\ sMergedNot n = [] /\ sIf n = None /\ sMergedIf n = [].
Lemma bare_ends : forall n, bare n -> kidsSettle n -> containsOk n -> ends (fun f => stepAt f n).
Proof.
  intros n (B1 & B2 & B3 & B4 & B5 & B6 & B7) K C. unfold stepAt, schemaStep. rewrite B1, B2, B3, B4, B5, B6, B7. cbn [is_some orb].
  destruct (unsupported n); [apply ends_nto; notime|]. destruct (sRef n); [apply ends_nto; notime|].
  assert (T : ends (fun f => match sConst n with Some v => parseConst E n v | None =>
    match (match sType n with Some t => mtMultiple t | None => None end) with
    | Some ts => parseMultiple E (parseF E f false) (merge E f) ts n
    | None =>
      match sType n with
      | Some t => if negb (String.eqb (mtSingle t) "") then parseType E (parseF E f false) (merge E f) (mtSingle t) n
                  else if String.eqb (inferType n) "unknown" then parseMultiple E (parseF E f false) (merge E f) typeAll n else parseType E (parseF E f false) (merge E f) (inferType n) n
      | None => if String.eqb (inferType n) "unknown" then parseMultiple E (parseF E f false) (merge E f) typeAll n else parseType E (parseF E f false) (merge E f) (inferType n) n
      end end end)).
  { destruct (sConst n); [apply ends_nto; notime|].
    assert (I : ends (fun f => if String.eqb (inferType n) "unknown" then parseMultiple E (parseF E f false) (merge E f) typeAll n else parseType E (parseF E f false) (merge E f) (inferType n) n))
      by (destruct (String.eqb (inferType n) "unknown"); [apply multiple_ends; auto|apply type_ends; auto]).
    destruct (sType n) as [t|]; [|exact I]. destruct (mtMultiple t); [apply multiple_ends; auto|].
    destruct (negb _); [apply type_ends; auto|exact I]. }
  destruct (sEnum n) as [[|x l]|]; [exact T|apply ends_nto; notime|exact T].
Qed.

Lemma ifBody_ends : forall f p b, nr p -> nrs (onode b) -> ends (fun g => parseIfBody E (parseF E g false) (merge E g) f p b).
Proof.
  intros f p [b|] Hp Hb; unfold parseIfBody; [|apply ends_nto; notime]. assert (B : nr b) by (apply Hb; left; auto).
  eb; [apply merge_ends; intros c [<-|[<-|[]]]; auto|]. intros g m s s1 H. apply merge_fine in H; [|intros c [<-|[<-|[]]]; auto]. destruct H as [Hm _]. clear g s s1.
  eb; [apply inScope_ends; apply settles_nr; auto|]. intros. apply ends_nto. notime.
Qed.
Lemma compileIf_ends : forall n f st, nr n -> nrs (ifs st) -> ends (fun g => compileIf E (parseF E g false) (merge E g) n f st).
Proof.
  intros n f [p i t e] Hn Hs. unfold compileIf. cbn [ifIf ifThen ifElse ifs] in *. destruct i as [i|]; [|apply ends_nto; notime].
  apply nrs_app in Hs. destruct Hs as [_ Hs]. apply nrs_app in Hs. destruct Hs as [Ht He].
  assert (G : ends (fun g => let* s := pget in
          let* k := compileNode E i (pPath s ++ "/" ++ f) in
          match k with
          | Bad e => bad e
          | Good eff =>
              let* t := parseIfBody E (parseF E g false) (merge E g) "/then" n t in
              let* e := parseIfBody E (parseF E g false) (merge E g) "/else" n e in
              good (eff, (t, e))
          end)).
  { eb; [apply ends_nto; notime|]. intros _ s0 _ _ _. eb; [apply ends_nto; notime|]. intros _ [k|k] _ _ _; [|apply ends_nto; notime].
    eb; [apply ifBody_ends; auto|]. intros _ t' _ _ _. eb; [apply ifBody_ends; auto|]. intros. apply ends_nto. notime. }
  destruct t, e; auto. apply ends_nto. notime.
Qed.
Lemma compileIfs_ends : forall l i n, nr n -> nrs (flat_map ifs l) -> ends (fun g => compileIfs E (parseF E g false) (merge E g) i n l).
Proof.
  induction l as [|st l IH]; intros i n Hn Hl; cbn [compileIfs]; [apply ends_nto; notime|]. cbn [flat_map] in Hl. apply nrs_app in Hl. destruct Hl as [Hs Hl].
  eb; [apply compileIf_ends; auto|]. intros _ [k|k] _ _ _.
  - eb; [apply IH; auto|]. intros. apply ends_nto. notime.
  - eb; [apply ends_nto; notime|]. intros _ u _ _ _. apply IH; auto.
Qed.

Definition noIf (n : schemaNode) : schemaNode := set_sIf None (set_sThen None (set_sElse None (set_sMergedIf [] n))).
Lemma noIf_nr : forall n, nr n -> nr (noIf n).
Proof.
  intros n H. apply nr_fields in H. destruct H as [R H]. unfold eachField in H. apply nr_fields. split; [exact R|]. unfold eachField.
  assert (N : nrs (onode (@None schemaNode))) by apply nrs_nil. assert (M : nrs (flat_map ifs [])) by apply nrs_nil. unfold noIf. tauto.
Qed.
Lemma newIf_ifs : forall n p, nr n -> nrs (flat_map ifs [newIf n p]).
Proof.
  intros n p H. apply nr_fields in H. destruct H as [R H]. unfold eachField in H. unfold newIf. cbn [flat_map ifs].
  rewrite app_nil_r. repeat (apply nrs_app; split); tauto.
Qed.
(* no negation: conditions are compiled after their schema, which has none left *)
Lemma calm_ends : forall n, nr n -> sNot n = None -> sMergedNot n = [] -> ends (fun f => stepAt f n).
Proof.
  intros n Hn N1 N2.
  destruct (sAllOf n) as [l|] eqn:A.
  { unfold stepAt, schemaStep. destruct (unsupported n); [apply ends_nto; notime|]. rewrite (nr_ref n Hn), A. apply allOf_ends; auto. }
  destruct (is_some (sOneOf n) || is_some (sAnyOf n)) eqn:C.
  { unfold stepAt, schemaStep. destruct (unsupported n); [apply ends_nto; notime|]. rewrite (nr_ref n Hn), A, C. apply combination_ends; auto. }
  assert (B : sAnyOf n = None /\ sOneOf n = None) by (destruct (sAnyOf n), (sOneOf n); try discriminate C; auto).
  destruct (nr_kids n Hn) as [K1 K2].
  destruct (is_some (sIf n) || match sMergedIf n with [] => false | _ => true end) eqn:I.
  - unfold stepAt, schemaStep. destruct (unsupported n); [apply ends_nto; notime|]. rewrite (nr_ref n Hn), A, C, N1, N2, I. cbn [is_some orb].
    unfold parseIf. eb; [apply ends_nto; notime|]. intros _ s0 _ _ _. cbv zeta. fold (noIf n).
    eb. { apply step_ends. destruct (nr_kids _ (noIf_nr n Hn)) as [K3 K4]. apply bare_ends; auto. destruct B. repeat split; auto. }
    intros _ [g|e] _ _ _; [|apply ends_nto; notime].
    set (l := (sMergedIf n ++ _)%list).
    assert (L : nrs (flat_map ifs l)).
    { unfold l. rewrite flat_map_app. apply nrs_app. split.
      - apply nr_fields in Hn. destruct Hn as [_ Hn]. unfold eachField in Hn. tauto.
      - destruct (sIf n); [apply newIf_ifs; auto|apply nrs_nil]. }
    clearbody l. destruct l as [|st l]; [apply ends_nto; notime|].
    eb; [apply compileIfs_ends; auto using noIf_nr|]. intros. apply ends_nto. notime.
  - apply bare_ends; auto. destruct B. unfold bare. destruct (sIf n), (sMergedIf n); try discriminate I. auto 10.
Qed.
Definition noNot (n : schemaNode) : schemaNode := set_sNot None (set_sMergedNot [] n).
Lemma noNot_nr : forall n, nr n -> nr (noNot n) /\ nrs (collectNots n) /\ (wt (noNot n) + lsum (collectNots n) = wt n)%nat.
Proof.
  intros n H. apply nr_fields in H. destruct H as [R H]. split; [|split].
  - apply nr_fields. split; [exact R|]. unfold eachField in *. assert (N : nrs (onode (@None schemaNode))) by apply nrs_nil. unfold noNot. tauto.
  - unfold collectNots. apply nrs_app. unfold eachField in H. split; [|tauto]. destruct (sNot n); [tauto|apply nrs_nil].
  - rewrite (wt_eq (noNot n)), (wt_eq n). unfold collectNots. rewrite lsum_app. unfold noNot.
    cbn [set_sNot set_sMergedNot sProperties sAdditionalProperties sPatternProperties sItems sContains sPrefixItems
      sAdditionalItems sUnevaluatedItems sNot sAllOf sAnyOf sOneOf sDefs sDefinitions sIf sThen sElse sDependentSchemas sMergedIf sMergedNot].
    change (lsum (onode None)) with O. change (lsum []) with O. destruct (sNot n); cbn [onode]; change (lsum []) with O; lia.
Qed.
Lemma free_ends : forall n, nr n -> ends (fun f => stepAt f n).
Proof.
  intros n. remember (wt n) as w eqn:W. revert n W. induction w as [w IH] using lt_wf_ind. intros n W Hn.
  destruct (is_some (sNot n) || match sMergedNot n with [] => false | _ => true end) eqn:N.
  2:{ apply calm_ends; auto; [destruct (sNot n)|destruct (sNot n), (sMergedNot n)]; try discriminate N; auto. }
  destruct (sAllOf n) as [l|] eqn:A.
  { unfold stepAt, schemaStep. destruct (unsupported n); [apply ends_nto; notime|]. rewrite (nr_ref n Hn), A. apply allOf_ends; auto. }
  destruct (is_some (sOneOf n) || is_some (sAnyOf n)) eqn:C.
  { unfold stepAt, schemaStep. destruct (unsupported n); [apply ends_nto; notime|]. rewrite (nr_ref n Hn), A, C. apply combination_ends; auto. }
  unfold stepAt, schemaStep. destruct (unsupported n); [apply ends_nto; notime|]. rewrite (nr_ref n Hn), A, C, N.
  destruct (noNot_nr n Hn) as (P1 & P2 & P3).
  assert (LC : (1 <= List.length (collectNots n))%nat).
  { unfold collectNots. destruct (sNot n), (sMergedNot n); try discriminate N; cbn; lia. }
  unfold parseNot. fold (noNot n). eb; [apply partition_ends; auto|]. intros f0 [singles doubles] s0 s1 Hp. apply partition_fine in Hp; auto.
  destruct Hp as (Q1 & Q2 & Q3). cbn [fst snd] in *. clear f0 s0 s1.
  assert (M : forall n', nr n' -> (wt n' < wt n)%nat -> ends (fun f => match singles with
    | [] => parseF E f true n'
    | _ => let* flat := merge E f [n'] in
      let* st := applyNots E f flat emptyColl singles in
      let* r := parseF E f false (fst st) in
      match r with
      | Bad e => bad e
      | Good g => good (GConstrained g [CMulti (snd st)])
      end end)).
  { intros n' Hn' Hw. destruct singles as [|x singles].
    - apply step_ends. apply (IH (wt n')); auto. lia.
    - eb; [apply merge_ends; intros c [<-|[]]; auto|]. intros f0 fl s0 s1 H. apply merge_fine in H; [|intros c [<-|[]]; auto]. destruct H as [Hf _]. clear f0 s0 s1.
      eb; [intros s _; apply applyNots_tot|]. intros f0 st s0 s1 H. apply applyNots_fine in H; auto. clear f0 s0 s1.
      eb; [intros s Hs; apply recT; auto; apply settles_nr; auto|]. intros. apply ends_nto. notime. }
  destruct doubles as [|d doubles].
  - eb; [apply ends_nto; notime|]. intros f0 n' s0 s1 H. apply pret_ok in H. destruct H as [-> _]. apply M; auto. lia.
  - eb; [apply merge_ends; apply nrs_cons; auto|]. intros f0 n' s0 s1 H. apply merge_fine in H; [|apply nrs_cons; auto]. destruct H as [H1 H2].
    apply M; auto. change (wts (noNot n :: d :: doubles)) with (wt (noNot n) + wts (d :: doubles))%nat in H2. lia.
Qed.
Lemma schema_ends : forall n, settles n -> ends (fun f => parseF E f true n).
Proof.
  intros n H. apply step_ends. destruct H as [n H|n r H|n B1 B2 B3 B4 B5 B6 B7 B8 B9].
  - apply free_ends. exact H.
  - unfold stepAt, schemaStep. rewrite H. apply ends_nto. notime.
  - apply bare_ends; [repeat split; auto|exact B9|left; auto].
Qed.
End Ends.

Theorem node_ends : forall E n s, settles n -> tot (fun f => parseF E f false n) s.
Proof.
  intros E n s Hn. remember (Z.to_nat (pxMaxDepth E - pDepth s + 1)) as k eqn:Hk. revert n s Hn Hk. induction k as [k IH] using lt_wf_ind. intros n s Hn Hk.
  apply (tot_le _ (fun f => nodeStep E (parseF E f true) n)). { intros f. exists (S f). apply bl_refl. }
  unfold nodeStep. apply tot_bind; [intros f f' Hf; mono|intros z f f' Hf; mono|apply tot_nto; notime|intros _ s0 s1 H]. apply pget_ok in H. destruct H as [-> ->].
  destruct (pxMaxDepth E <? pDepth s + 1) eqn:L; [apply tot_nto; notime|]. apply Z.ltb_ge in L.
  apply tot_bind; [intros f f' Hf; mono|intros z f f' Hf; mono|apply tot_nto; notime|intros _ u1 s1 H1]. apply pmod_ok in H1.
  apply tot_bind; [intros f f' Hf; mono|intros z f f' Hf; mono| |intros; apply tot_nto; notime].
  apply tot_bind; [intros f f' Hf; mono|intros z f f' Hf; mono|apply tot_nto; notime|intros _ u2 s2 H2]. apply pmod_ok in H2.
  assert (D2 : pDepth s2 = pDepth s + 1) by (subst s2 s1; reflexivity).
  apply tot_bind; [intros f f' Hf; mono|intros z f f' Hf; mono| |].
  - apply (schema_ends E (pDepth s + 1)); auto. intros m t Hm Ht. eapply IH; [|exact Hm|reflexivity]. rewrite Ht, Hk. lia.
  - intros _ r s3 _. apply tot_nto. apply nto_bind; [destruct (isBad r); auto with nto|]. intros _. apply nto_bind; [destruct (sId n); [intros t; discriminate|auto with nto]|].
    intros _. apply nto_bind; [intros t; discriminate|]. intros _. destruct (sConstraints n); auto with nto.
Qed.

(* ------------------------------------------------------------------ documents *)
#[export] Hint Resolve bl_parseDefs bl_parseRoot : mono.
Lemma inScope_tot : forall E sc n srcs s, settles n -> tot (fun f => inScope E (parseNode E f) sc n srcs) s.
Proof. intros E sc n srcs s Hn. apply (inScope_ends E (pDepth s)); auto. intros. apply node_ends; auto. Qed.
Lemma defs_tot : forall E path l s, (forall c, In c (map snd l) -> settles c) -> tot (fun f => parseDefs E f path l) s.
Proof.
  induction l as [|[k n] l IH]; intros s H; cbn [parseDefs]; [apply tot_nto; notime|].
  apply tot_bind; [intros f f' Hf; unfold parseNode; mono|intros z f f' Hf; mono|apply inScope_tot; apply H; left; auto|intros _ g s1 _].
  apply tot_bind; [intros f f' Hf; mono|intros z f f' Hf; mono|apply IH; intros; apply H; right; auto|intros; apply tot_nto; notime].
Qed.
Theorem root_tot : forall E n s, documentSettles n -> tot (fun f => parseRoot E f n) s.
Proof.
  intros E n s [Hn Hd]. unfold parseRoot. assert (D1 : forall c, In c (map snd (get_or (sDefs n) [])) -> settles c).
  { intros c Hc. apply Hd. apply in_or_app. left. destruct (sDefs n); auto. }
  assert (D2 : forall c, In c (map snd (get_or (sDefinitions n) [])) -> settles c).
  { intros c Hc. apply Hd. apply in_or_app. right. destruct (sDefinitions n); auto. }
  apply tot_bind; [intros f f' Hf; mono|intros z f f' Hf; unfold parseNode; mono|apply defs_tot; auto|intros _ u s1 _].
  apply tot_bind; [intros f f' Hf; mono|intros z f f' Hf; unfold parseNode; mono|apply defs_tot; auto|intros _ u2 s2 _]. apply node_ends; auto.
Qed.

Section Drain.
Variable E : penv.
Lemma parseNext_tot : forall id rest s, (forall p d n, pxFetch E p d = Some n -> documentSettles n) -> tot (fun f => parseNext E f id rest) s.
Proof.
  intros id rest s Hp. unfold parseNext.
  apply tot_bind; [intros f f' Hf; mono|intros z f f' Hf; mono|apply tot_nto; notime|intros _ u s1 _].
  apply tot_bind; [intros f f' Hf; mono|intros z f f' Hf; mono| |intros f0 d s2 Hd].
  { apply tot_const. unfold resolveDocument. destruct (String.eqb (refDoc id) "" || negb (pxFetchers E)); [discriminate|].
    destruct (pxFetch E _ _); discriminate. }
  apply tot_bind; [intros f f' Hf; mono|intros z f f' Hf; mono| |intros; apply tot_nto; notime].
  destruct d as [n|m]; [|apply tot_nto; notime].
  apply tot_bind; [intros f f' Hf; mono|intros z f f' Hf; mono|apply tot_nto; notime|intros _ u3 s3 _].
  apply tot_bind; [intros f f' Hf; mono|intros z f f' Hf; mono| |intros; apply tot_nto; notime].
  apply root_tot. unfold resolveDocument in Hd. destruct (String.eqb (refDoc id) "" || negb (pxFetchers E)); [discriminate|].
  destruct (pxFetch E _ _) as [n'|] eqn:F; [|discriminate]. apply pbind_ok in Hd. destruct Hd as (a & t & _ & Hd). apply pret_ok in Hd. destruct Hd as [Hd _]. injection Hd as ->.
  eapply Hp. exact F.
Qed.
Lemma grows_drain : forall k, grows (fun f => drain E f k).
Proof. intros k f f' H. apply bl_drain; auto. Qed.
Lemma grows_next : forall id rest, grows (fun f => parseNext E f id rest).
Proof. intros id rest f f' H. unfold parseNext. mono. Qed.
Lemma drain_tot : forall r ids k s, docInv E r (pDocs s) (pDone s) (pAliases s) (pQueue s) (pLog s) -> (forall c, permitted E c -> In c ids) ->
  (forall p d n, pxFetch E p d = Some n -> documentSettles n) ->
  (List.length (pQueue s) + openIn (universe ids) s * S (List.length (universe ids)) < k)%nat ->
  tot (fun f => drain E f k) s.
Proof.
  intros r ids. induction k as [|k IH]; intros s I Hids Hp Hk; [lia|].
  cbn [drain]. apply tot_bind; [apply grows_const|intros z f f' Hf; destruct (pQueue z); [apply bl_refl|apply bl_bind; [apply grows_next; auto|intros; apply grows_drain; auto]]|apply tot_nto; notime|intros _ s' s0 H0].
  apply pget_ok in H0. destruct H0 as [-> ->]. destruct (pQueue s) as [|id rest] eqn:Hq; [apply tot_nto; notime|].
  apply tot_bind; [apply grows_next|intros; apply grows_drain|apply parseNext_tot; auto|intros fuel [] s1 Hn].
  rewrite <- Hq in I. destruct (parseNext_keeps E fuel r id rest s tt s1 I Hq Hn) as (I1 & (a & s0 & Ha & Hs) & Hm).
  apply IH; auto.
  assert (Hmono : forall d, settled s d -> settled s1 d) by (intros d [H1 H2]; apply Hm; auto).
  destruct a as [n|m].
  - assert (Hf : pxFetchers E = true).
    { apply resolveDocument_ok in Ha. destruct Ha as [[_ [m Hm']]|[Hf _]]; [discriminate|exact Hf]. }
    pose proof (queue_length E r s1 ids I1 Hf Hids) as Hlen.
    assert (Hid : In id (universe ids)).
    { destruct I. destruct (iQueue Hf id) as (c & Hc & Hid). { rewrite Hq. simpl. auto. }
      apply Hids in Hc. unfold universe. apply in_or_app. destruct Hid as [->| ->]; [auto|]. right. apply in_map; auto. }
    assert (Hns : ~ settled s id).
    { intros [Hd _]. destruct I. eapply iPending; [|exact Hd]. rewrite Hq. simpl. auto. }
    pose proof (openIn_lt (universe ids) s s1 id Hmono Hid Hns Hs) as Hlt. nia.
  - destruct Hs as [Hs _]. rewrite Hs. pose proof (openIn_le (universe ids) s s1 Hmono) as Hle. cbn [List.length] in Hk. nia.
Qed.
End Drain.

Theorem document_ends : forall E parsing rootId n ids, documentSettles n ->
  (forall p d m, pxFetch E p d = Some m -> documentSettles m) ->
  (forall p scope doc id, pxResolveId E p scope doc = Some id -> In id ids) ->
  exists fuel, parseDoc E fuel parsing rootId n <> Timeout.
Proof.
  intros E parsing rootId n ids Hn Hp Hids.
  assert (T : tot (fun f => let* r := parseRoot E f n in run* drain E f f in pret r) (initP E parsing rootId n)); [|exact T].
  apply tot_bind; [intros f f' Hf; mono|intros z f f' Hf; apply bl_bind; [apply bl_drain; auto|intros; apply bl_refl]|apply root_tot; auto|intros f r s H].
  apply tot_bind; [intros g g' Hf; apply bl_drain; auto|intros; apply grows_const| |intros; apply tot_nto; notime].
  apply (st_parseRoot E) in H. assert (I := kInv _ _ _ H _ (initP_inv E parsing rootId n)).
  assert (X : tot (fun f => drain E f (S (List.length (pQueue s) + openIn (universe ids) s * S (List.length (universe ids))))) s).
  { eapply drain_tot; [exact I| |exact Hp|]; auto. intros c (p & a & b & Hc). eapply Hids; eauto. }
  revert X. apply tot_le. intros g. exists (Nat.max g (S (List.length (pQueue s) + openIn (universe ids) s * S (List.length (universe ids))))).
  apply bl_drain; lia.
Qed.
