(* What the rounds of the queue leave of the table of references: the proofs behind C31. *)
From Coq Require Import ZArith List String Ascii Bool Lia.
From Verif Require Import Base Float64 Json Schema Util Number Gen Codec PState PFacts RefPath Merge NotMerge Parse ParseKeep Fetch SpecFetch DocProps.
Import ListNotations.
Open Scope string_scope.
Open Scope Z_scope.

Section Rounds.
Variable E : penv.
Variable fuel : nat.
Notation inv r s := (docInv E r (pDocs s) (pDone s) (pAliases s) (pQueue s) (pLog s)).

Lemma resolve_refs : forall id s a s', resolveDocument E id s = Ok (a, s') ->
  pRefs s' = pRefs s /\ pPath s' = pPath s /\ pDepth s' = pDepth s /\ pParsing s' = pParsing s /\ pResolving s' = pResolving s /\ pErrs s' = pErrs s.
Proof.
  intros id s a s' H. apply resolveDocument_ok in H. destruct H as [[-> _]|(_ & _ & H)]; [auto 10|]. cbv zeta in H.
  destruct H as [[-> _]|(n & H & _)]; [auto 10|]. apply pmod_ok in H. subst s'. destruct (assoc (refDoc id) _); auto 10.
Qed.
Lemma resolve_fetch : forall id s n s', resolveDocument E id s = Ok (Good n, s') -> pxFetch E (pParsing s) (refDoc id) = Some n.
Proof.
  intros id s n s' H. unfold resolveDocument in H. destruct (_ || _); [discriminate|]. destruct (pxFetch E _ _) as [m|]; [|discriminate].
  apply pbind_ok in H. destruct H as (u & s0 & _ & H). apply pret_ok in H. destruct H as [H _]. congruence.
Qed.
(* one round: the table of the document that was fetched and parsed may change, no other *)
Lemma next_refs : forall id rest s s', parseNext E fuel id rest s = Ok (tt, s') ->
  exists a s0, resolveDocument E id (withQueue rest (withParsing id (withResolving id s))) = Ok (a, s0) /\
  pPath s' = pPath s /\ pDepth s' = pDepth s /\
  match a with
  | Good n => exists s1 r s2, parseRoot E fuel n s1 = Ok (r, s2) /\ pParsing s1 = id /\ pResolving s1 = id /\ pPath s1 = pPath s /\ pDepth s1 = pDepth s /\ pRefs s' = pRefs s2 /\
      (forall d, d <> id -> assoc d (pRefs s') = assoc d (pRefs s)) /\ incl (pErrs s2) (pErrs s')
  | Bad _ => pRefs s' = pRefs s
  end /\ incl (pErrs s) (pErrs s').
Proof.
  intros id rest s s' H. unfold parseNext in H.
  apply pbind_ok in H. destruct H as (u & s0 & H0 & H). apply pmod_ok in H0. subst s0.
  apply pbind_ok in H. destruct H as (a & s0 & H0 & H). exists a, s0. split; [exact H0|].
  apply resolve_refs in H0. cbn [pRefs pPath pDepth pParsing pResolving withQueue withParsing withResolving] in H0. destruct H0 as (A1 & A2 & A3 & A4 & A5 & A6). change (pErrs s0 = pErrs s) in A6.
  apply pbind_ok in H. destruct H as (ok & s2 & H2 & H).
  assert (X : pRefs s' = pRefs s2 /\ pPath s' = pPath s2 /\ pDepth s' = pDepth s2 /\ incl (pErrs s2) (pErrs s')).
  { destruct ok; [apply pret_ok in H; destruct H as [_ ->]; auto using incl_refl|]. apply pmod_ok in H. subst s'. cbn. auto using incl_tl, incl_refl. }
  destruct X as (X1 & X2 & X3 & X4). destruct a as [n|m].
  - apply pbind_ok in H2. destruct H2 as (u1 & s3 & H3 & H2). apply pmod_ok in H3. subst s3.
    apply pbind_ok in H2. destruct H2 as (r & s3 & H3 & H2). apply pret_ok in H2. destruct H2 as [_ ->].
    pose proof (st_parseRoot E _ _ _ _ _ H3) as K.
    split; [rewrite X2, (kPath _ _ _ K); exact A2|]. split; [rewrite X3, (kDepth _ _ _ K); exact A3|].
    split.
    2:{ eapply incl_tran; [|exact X4]. destruct (kErrs _ _ _ K) as [l Hl]. rewrite Hl. cbn [pErrs withDone]. rewrite A6. apply incl_appr, incl_refl. }
    eexists. exists r, s3. split; [exact H3|]. split; [exact A4|]. split; [exact A5|]. split; [exact A2|]. split; [exact A3|]. split; [exact X1|]. split; [|exact X4].
    intros d Hd. rewrite X1, (kOther _ _ _ K); cbn [pRefs withDone]; [rewrite A1; reflexivity|]. cbn [pParsing withDone]. congruence.
  - apply pret_ok in H2. destruct H2 as [_ ->]. rewrite X1, X2, X3. split; [exact A2|]. split; [exact A3|]. split; [exact A1|]. rewrite <- A6. exact X4.
Qed.
Lemma rounds_refs : forall s l s', rounds E fuel s l s' -> forall d, ~ In (d, true) l -> assoc d (pRefs s') = assoc d (pRefs s).
Proof.
  intros s l s' H. induction H as [s Hq|s id rest a s0 s1 l s2 Hq Ha Hn Hr IH]; intros d Hd; [reflexivity|].
  rewrite IH by (intros I; apply Hd; right; exact I). apply next_refs in Hn. destruct Hn as (a' & s0' & Ha' & _ & _ & Hn & _).
  assert (a' = a) by congruence. subst a'. destruct a as [n|m]; [|rewrite Hn; reflexivity].
  destruct Hn as (? & ? & ? & _ & _ & _ & _ & _ & _ & Hn & _). apply Hn. intros ->. apply Hd. left. reflexivity.
Qed.
Lemma rounds_errs : forall s l s', rounds E fuel s l s' -> incl (pErrs s) (pErrs s').
Proof.
  intros s l s' H. induction H as [s Hq|s id rest a s0 s1 l s2 Hq Ha Hn Hr IH]; [apply incl_refl|].
  apply next_refs in Hn. destruct Hn as (_ & _ & _ & _ & _ & _ & Hn). eapply incl_tran; eauto.
Qed.
Lemma rounds_unfetched : forall s l s', rounds E fuel s l s' -> forall d, (forall p, pxFetch E p (refDoc d) = None) -> ~ In (d, true) l.
Proof.
  intros s l s' H. induction H as [s Hq|s id rest a s0 s1 l s2 Hq Ha Hn Hr IH]; intros d Hd I; [exact I|].
  destruct I as [I|I]; [|exact (IH d Hd I)]. apply pair_equal_spec in I. destruct I as [-> I]. destruct a as [n|m]; [|discriminate].
  apply resolve_fetch in Ha. rewrite Hd in Ha. discriminate.
Qed.
Lemma some_rounds : forall s t, someRounds E fuel s t -> forall r, inv r s -> inv r t /\ pPath t = pPath s /\ pDepth t = pDepth s.
Proof.
  intros s t H. induction H as [s|s id rest s1 t Hq Hn Hr IH]; intros r I; [auto|].
  destruct (parseNext_keeps E fuel r id rest s tt s1 I Hq Hn) as (I1 & _). destruct (IH r I1) as (A & B & C).
  apply next_refs in Hn. destruct Hn as (_ & _ & _ & P & D & _). split; [exact A|]. split; congruence.
Qed.
End Rounds.
