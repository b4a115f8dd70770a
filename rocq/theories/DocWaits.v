(* A document that a reference names is parsed or waits for it, and nothing that waits is forgotten. *)
From Coq Require Import ZArith List String Ascii Bool Lia.
From Verif Require Import Base Float64 Json Schema Util Number Gen Codec PState PFacts RefPath Merge NotMerge Parse ParseKeep Fetch SpecFetch SpecParse DocProps.
Import ListNotations.
Open Scope string_scope.
Open Scope Z_scope.

Section Waits.
Variable E : penv.
Variable fuel : nat.
Notation inv r s := (docInv E r (pDocs s) (pDone s) (pAliases s) (pQueue s) (pLog s)).

Lemma keeps_stored : forall s s', keeps E s s' -> parsedStored s -> parsedStored s'.
Proof.
  intros s s' K J d Hd. apply (kTrue _ _ _ K) in Hd. destruct (J d Hd) as [[n Hn]|Hn]; [|auto].
  left. exists n. apply (kDocs _ _ _ K). exact Hn.
Qed.
Lemma keeps_waits : forall s s' d, keeps E s s' -> parsedStored s -> waits s d -> waits s' d.
Proof.
  intros s s' d K J [H|H]; [left; apply (kQueue _ _ _ K); exact H|]. right. apply (kDone _ _ _ K); [exact H|apply J; exact H].
Qed.
Lemma initP_stored : forall parsing rootId n, parsedStored (initP E parsing rootId n).
Proof.
  intros parsing rootId n d H. left. unfold parsedDoc in H. cbn [initP pDone pDocs assoc] in *.
  destruct (String.eqb d rootId); [eauto|discriminate].
Qed.

Lemma deferred_waits : forall ref s d p s', refDoc ref <> "" -> deferredRef E ref s = Ok (Good (d, p), s') -> waits s' d.
Proof.
  intros ref s d p s' Hr H. unfold deferredRef in H.
  destruct (String.eqb (refDoc ref) "") eqn:R; [apply String.eqb_eq in R; congruence|].
  destruct (resolveDocRef E s (refDoc ref) (refPath ref)) as [[d' p']|m]; [|discriminate].
  injection H as -> -> <-. unfold waits, parsedDoc, needsParsing.
  destruct (mem_string d (pQueue s)) eqn:M; cbn [negb andb].
  - left. apply mem_string_In. exact M.
  - destruct (assoc d (pDone s)) as [[]|] eqn:D.
    + right. exact D.
    + left. cbn [pQueue withQueue]. apply in_or_app. right. left. reflexivity.
    + left. cbn [pQueue withQueue]. apply in_or_app. right. left. reflexivity.
Qed.

(* one round: what waited still waits or is done, or was taken and could not be fetched *)
Lemma next_waits : forall r id rest s s' d, inv r s -> parsedStored s -> pQueue s = id :: rest ->
  parseNext E fuel id rest s = Ok (tt, s') -> waits s d ->
  parsedStored s' /\ (waits s' d \/ (d = id /\ errorAt s' id (pPath s ++ "document_parse_error"))) /\ pPath s' = pPath s /\
  forall a b, errorAt s a b -> errorAt s' a b.
Proof.
  intros r id rest s s' d I J Hq H Hw. pose proof H as H0.
  destruct (parseNext_keeps E fuel r id rest s tt s' I Hq H0) as (_ & (a & s1 & Ha & Hd) & Hm).
  unfold parseNext in H.
  apply pbind_ok in H. destruct H as ([] & s0 & H1 & H). apply pmod_ok in H1. change (s0 = taken id rest s) in H1. subst s0.
  apply pbind_ok in H. destruct H as (a' & s1' & H1 & H). assert (X : a' = a /\ s1' = s1) by (split; congruence). destruct X; subst a' s1'.
  pose proof (fetch_keeps E r id rest s a s1 I Hq H1) as (K1 & Q1 & D1 & G1).
  assert (J0 : parsedStored (taken id rest s)) by (intros x Hx; exact (J x Hx)).
  pose proof (keeps_stored _ _ K1 J0) as J1.
  apply pbind_ok in H. destruct H as (ok & s2 & H2 & H).
  assert (Ke : keeps E s2 s') by (destruct ok; [apply pret_ok in H; destruct H as [_ <-]; apply keeps_refl|exact (st_addErrSub E _ _ _ _ _ H)]).
  destruct a as [n|m].
  - apply pbind_ok in H2. destruct H2 as ([] & s3 & H3 & H2). apply pmod_ok in H3.
    apply pbind_ok in H2. destruct H2 as (g & s4 & H4 & H2). apply pret_ok in H2. destruct H2 as [_ <-].
    apply (st_parseRoot E) in H4. pose proof (keeps_trans _ _ _ _ H4 Ke) as K3.
    destruct (G1 n eq_refl) as (_ & n' & Hn').
    assert (J3 : parsedStored s3).
    { intros x Hx. subst s3. unfold parsedDoc in Hx. cbn [pDone pDocs withDone] in *.
      destruct (string_dec x id) as [->|Hx']; [|rewrite assoc_massign_other in Hx by auto; apply J1; exact Hx].
      destruct (string_dec (refDoc id) id) as [He|He]; [left; rewrite He in Hn'; eauto|auto]. }
    split; [exact (keeps_stored _ _ K3 J3)|]. split; [left|].
    + apply (keeps_waits _ _ _ K3 J3). destruct (string_dec d id) as [->|Hdi].
      * right. unfold parsedDoc. subst s3. cbn [pDone withDone]. apply assoc_massign_same.
      * destruct Hw as [Hw|Hw].
        -- left. rewrite Hq in Hw. destruct Hw as [Hw|Hw]; [congruence|]. subst s3. cbn [pQueue withDone]. rewrite Q1. exact Hw.
        -- right. unfold parsedDoc in *. subst s3. cbn [pDone withDone]. rewrite assoc_massign_other by auto.
           apply (kDone _ _ _ K1); [exact Hw|]. apply J. exact Hw.
    + assert (K : pPath s' = pPath s /\ exists l, pErrs s' = (l ++ pErrs s)%list).
      { subst s3. destruct K1, K3. cbn [pPath pErrs withDone taken withQueue withParsing withResolving] in *. split; [congruence|].
        destruct kErrs as [l1 E1], kErrs0 as [l2 E2]. exists (l2 ++ l1)%list. rewrite E2, E1, app_assoc. reflexivity. }
      destruct K as [K [l L]]. split; [exact K|]. intros x y [t T]. exists t. rewrite L. apply in_or_app. auto.
  - apply pret_ok in H2. destruct H2 as [-> ->]. pose proof (keeps_trans _ _ _ _ K1 Ke) as K.
    split; [exact (keeps_stored _ _ Ke J1)|]. split.
    + destruct (string_dec d id) as [->|Hdi].
      * right. split; [reflexivity|]. exists "document". apply pmod_ok in H. subst s'. left.
        destruct K1. cbn [pPath pParsing taken withQueue withParsing withResolving] in *. rewrite kPath, kParsing. reflexivity.
      * left. destruct Hd as [Qd Dd]. destruct Hw as [Hw|Hw].
        -- left. rewrite Qd. rewrite Hq in Hw. destruct Hw as [Hw|Hw]; [congruence|exact Hw].
        -- right. unfold parsedDoc. rewrite Dd. exact Hw.
    + destruct K. cbn [pPath pErrs taken withQueue withParsing withResolving] in *. split; [exact kPath|].
      destruct kErrs as [l L]. intros x y [t T]. exists t. rewrite L. apply in_or_app. auto.
Qed.

Lemma rounds_parsed : forall r s l s', rounds E fuel s l s' -> inv r s -> parsedStored s -> forall d, waits s d ->
  parsedDoc s' d \/ errorAt s' d (pPath s ++ "document_parse_error").
Proof.
  intros r s l s' H. induction H as [s Hq|s id rest a s0 s1 l s2 Hq Ha Hn Hr IH]; intros I J d Hw.
  { destruct Hw as [Hw|Hw]; [rewrite Hq in Hw; destruct Hw|auto]. }
  destruct (parseNext_keeps E fuel r id rest s tt s1 I Hq Hn) as (I1 & _ & _).
  destruct (next_waits r id rest s s1 d I J Hq Hn Hw) as (J1 & [W|[-> W]] & P & _).
  - destruct (IH I1 J1 d W) as [X|X]; [auto|]. right. rewrite <- P. exact X.
  - right. clear - Hr I1 J1 W.
    assert (X : forall x y, errorAt s1 x y -> errorAt s2 x y).
    { clear W. revert I1 J1. induction Hr as [t Hq|t id' rest' a t0 t1 l t2 Hq Ha Hn Hr IH]; intros I J x y H; [exact H|].
      destruct (parseNext_keeps E fuel r id' rest' t tt t1 I Hq Hn) as (I1 & _ & _).
      assert (W : waits t id') by (left; rewrite Hq; left; reflexivity).
      destruct (next_waits r id' rest' t t1 id' I J Hq Hn W) as (J1 & _ & _ & M). apply IH; auto. }
    apply X. exact W.
Qed.
End Waits.
