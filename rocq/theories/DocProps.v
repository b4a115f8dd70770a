(* What parsing does with external documents: which of them it asks for, and how often. *)
From Coq Require Import ZArith List String Ascii Bool Lia.
From Verif Require Import Base Float64 Json Schema Util Number Gen Codec PState PFacts RefPath Merge NotMerge Parse ParseKeep Fetch SpecFetch.
Import ListNotations.
Open Scope string_scope.
Open Scope Z_scope.

Section Docs.
Variable E : penv.
Variable fuel : nat.
Notation inv r s := (docInv E r (pDocs s) (pDone s) (pAliases s) (pQueue s) (pLog s)).

Lemma assignAll_In : forall (l acc : list (string * (string * string))) x,
  In x (fold_left (fun acc kv => massign (fst kv) (snd kv) acc) l acc) -> In x acc \/ In x l.
Proof.
  induction l as [|[k v] l IH]; simpl; intros acc x H; auto.
  apply IH in H. destruct H as [H|H]; auto. apply massign_In in H. destruct H as [->|H]; auto.
Qed.

Lemma initP_inv : forall parsing rootId n, inv rootId (initP E parsing rootId n).
Proof.
  intros. constructor; cbn [initP pDocs pDone pAliases pQueue pLog].
  - cbn. rewrite String.eqb_refl. discriminate.
  - cbn. rewrite String.eqb_refl. reflexivity.
  - intros k d p H. apply assignAll_In in H. destruct H as [[]|H]. apply collectIds_doc in H. cbn in H. subst.
    cbn. rewrite String.eqb_refl. discriminate.
  - cbn. intros d H. destruct (String.eqb d rootId) eqn:Hd; [|congruence]. apply String.eqb_eq in Hd. auto.
  - intros _ d [].
  - intros d [].
  - constructor.
  - constructor.
Qed.

(* the state in which a dequeued document is fetched *)
Definition taken (id : string) (rest : list string) (s : pst) : pst := withQueue rest (withParsing id (withResolving id s)).

Lemma taken_inv : forall r id rest s, inv r s -> pQueue s = id :: rest -> inv r (taken id rest s).
Proof.
  intros r id rest s I Hq. destruct I. rewrite Hq in *. unfold taken.
  constructor; cbn [pDocs pDone pAliases pQueue pLog withQueue withParsing withResolving]; auto.
  - intros Hf d Hd. apply iQueue; simpl; auto.
  - intros d Hd. apply iPending; simpl; auto.
  - inversion iNoDup; auto.
Qed.

Lemma addDocument_queue : forall d n s s', addDocument E d n s = Ok (tt, s') -> pQueue s' = pQueue s.
Proof. intros d n s s' H. apply pmod_ok in H. subst. destruct (assoc d (pDocs s)); reflexivity. Qed.
Lemma addDocument_has : forall d n s s', addDocument E d n s = Ok (tt, s') -> exists n', assoc d (pDocs s') = Some n'.
Proof.
  intros d n s s' H. apply pmod_ok in H. subst. destruct (assoc d (pDocs s)) eqn:Hd; eauto.
  exists n. cbn [pDocs withAliases withDone withDocs]. apply assoc_massign_same.
Qed.

(* the fetch of a dequeued document *)
Lemma fetch_keeps : forall r id rest s a s1, inv r s -> pQueue s = id :: rest ->
  resolveDocument E id (taken id rest s) = Ok (a, s1) ->
  keeps E (taken id rest s) s1 /\ pQueue s1 = rest /\ (assoc id (pDone s1) = Some true -> assoc id (pDone s) = Some true) /\
  (forall n, a = Good n -> pxFetchers E = true /\ exists n', assoc (refDoc id) (pDocs s1) = Some n').
Proof.
  intros r id rest s a s1 I Hq H. apply resolveDocument_ok in H.
  destruct H as [[-> [m ->]]|(Hf & Hne & H)].
  - split; [apply keeps_refl|]. split; [reflexivity|]. split; [auto|]. intros n Hn. discriminate.
  - assert (Hc : exists c, permitted E c /\ (id = c \/ id = refDoc c)).
    { destruct I. apply iQueue; auto. rewrite Hq. simpl. auto. }
    destruct Hc as (c & Hc & Hid).
    assert (Hrd : refDoc id = refDoc c) by (destruct Hid as [->| ->]; [reflexivity|apply refDoc_idem]).
    assert (Ho : okFetch E (pParsing (taken id rest s), refDoc id)).
    { split; [exact Hf|]. split; [exact Hne|]. exists c. cbn [fst snd taken pParsing withQueue withParsing withResolving]. split; [exact Hrd|]. right. split; [exact Hc|].
      destruct Hid as [->| ->]; [left; reflexivity|right; symmetry; apply refDoc_idem]. }
    cbv zeta in H. destruct H as [[-> [m ->]]|(n & H & ->)].
    + split; [exact (proj1 (keeps_fetch E _ c (refDoc id) emptyNode Hrd (fun _ _ => conj Ho Hc)))|].
      split; [reflexivity|]. split; [auto|]. intros n Hn. discriminate.
    + split; [exact (proj2 (keeps_fetch E _ c (refDoc id) n Hrd (fun _ _ => conj Ho Hc)) s1 H)|].
      split; [apply addDocument_queue in H; exact H|].
      split; [|intros n' _; split; [exact Hf|eapply addDocument_has; eauto]].
      apply pmod_ok in H. subst s1. destruct (assoc (refDoc id) _); [auto|].
      cbn [pDone withAliases withDone withDocs taken withQueue withParsing withResolving withLog].
      destruct (string_dec id (refDoc id)) as [He|He].
      * rewrite <- He. rewrite assoc_massign_same. discriminate.
      * rewrite assoc_massign_other; auto.
Qed.

(* what one round of the queue leaves *)
Lemma parseNext_keeps : forall r id rest s u s', inv r s -> pQueue s = id :: rest ->
  parseNext E fuel id rest s = Ok (u, s') ->
  inv r s' /\
  (exists a s1, resolveDocument E id (taken id rest s) = Ok (a, s1) /\
     match a with
     | Good n => assoc id (pDone s') = Some true /\ ((exists n', assoc id (pDocs s') = Some n') \/ refDoc id <> id)
     | Bad _ => pQueue s' = rest /\ pDone s' = pDone s
     end) /\
  (forall d, assoc d (pDone s) = Some true -> (exists n, assoc d (pDocs s) = Some n) \/ refDoc d <> d ->
     assoc d (pDone s') = Some true /\ ((exists n, assoc d (pDocs s') = Some n) \/ refDoc d <> d)).
Proof.
  intros r id rest s u s' I Hq H. unfold parseNext in H.
  apply pbind_ok in H. destruct H as ([] & s0 & H0 & H). apply pmod_ok in H0. change (s0 = taken id rest s) in H0. subst s0.
  apply pbind_ok in H. destruct H as (a & s1 & H1 & H).
  pose proof (taken_inv r id rest s I Hq) as It.
  pose proof (fetch_keeps r id rest s a s1 I Hq H1) as (K1 & Q1 & D1 & G1).
  pose proof (kInv _ _ _ K1 r It) as I1.
  apply pbind_ok in H. destruct H as (ok & s2 & H2 & H).
  assert (Hend : keeps E s2 s' /\ pQueue s' = pQueue s2 /\ pDone s' = pDone s2 /\ pDocs s' = pDocs s2).
  { destruct ok.
    - apply pret_ok in H. destruct H as [_ <-]. split; [apply keeps_refl|auto].
    - pose proof (st_addErrSub E _ _ _ _ _ H) as K. split; [exact K|]. apply pmod_ok in H. subst s'. auto. }
  destruct Hend as (Ke & Qe & De & Ce).
  destruct a as [n|m].
  - apply pbind_ok in H2. destruct H2 as ([] & s3 & H3 & H2). apply pmod_ok in H3.
    apply pbind_ok in H2. destruct H2 as (g & s4 & H4 & H2). apply pret_ok in H2. destruct H2 as [_ <-].
    apply (st_parseRoot E) in H4.
    destruct (G1 n eq_refl) as (Hf & n' & Hn').
    assert (Hs3 : assoc id (pDone s3) = Some true) by (subst s3; cbn [pDone withDone]; apply assoc_massign_same).
    assert (Hd3 : (exists n, assoc id (pDocs s3) = Some n) \/ refDoc id <> id).
    { destruct (string_dec (refDoc id) id) as [He|He]; [left; rewrite He in Hn'; subst s3; eauto|auto]. }
    assert (I3 : inv r s3).
    { subst s3. destruct I1. rewrite Q1 in *.
      assert (Hni : ~ In id rest) by (destruct I; rewrite Hq in *; inversion iNoDup0; auto).
      constructor; cbn [pDocs pDone pAliases pQueue pLog withDone]; rewrite ?Q1; auto.
      - destruct (string_dec r id) as [->|Hr]; [apply assoc_massign_same|rewrite assoc_massign_other; auto].
      - intros d Hd. rewrite assoc_massign_other; [auto|]. intros ->. auto. }
    pose proof (keeps_trans _ _ _ _ H4 Ke) as K3.
    assert (Hmono : forall d, assoc d (pDone s3) = Some true -> (exists n, assoc d (pDocs s3) = Some n) \/ refDoc d <> d ->
       assoc d (pDone s') = Some true /\ ((exists n, assoc d (pDocs s') = Some n) \/ refDoc d <> d)).
    { intros d Hd Hx. split; [apply (kDone _ _ _ K3); auto|]. destruct Hx as [[x Hx]|Hx]; [left; exists x; apply (kDocs _ _ _ K3); exact Hx|auto]. }
    split; [apply (kInv _ _ _ K3 r I3)|]. split.
    + exists (Good n), s1. split; [exact H1|]. apply Hmono; auto.
    + intros d Hd Hx.
      assert (Hd1 : assoc d (pDone s1) = Some true /\ ((exists n, assoc d (pDocs s1) = Some n) \/ refDoc d <> d)).
      { split; [apply (kDone _ _ _ K1); auto|]. destruct Hx as [[x Hx]|Hx]; [left; exists x; apply (kDocs _ _ _ K1); exact Hx|auto]. }
      destruct Hd1 as [Hd1 Hd2]. apply Hmono; subst s3; auto. cbn [pDone withDone].
      destruct (string_dec d id) as [->|Hdi]; [apply assoc_massign_same|rewrite assoc_massign_other; auto].
  - apply pret_ok in H2. destruct H2 as [_ ->].
    split; [apply (kInv _ _ _ Ke r I1)|]. split.
    + exists (Bad m), s1. split; [exact H1|]. split; [congruence|]. rewrite De.
      apply resolveDocument_ok in H1. destruct H1 as [[-> _]|(_ & _ & H1)]; [reflexivity|].
      destruct H1 as [[-> _]|(n & _ & Hn)]; [reflexivity|discriminate].
    + intros d Hd Hx. pose proof (keeps_trans _ _ _ _ K1 Ke) as K. split; [apply (kDone _ _ _ K); auto|].
      destruct Hx as [[x Hx]|Hx]; [left; exists x; apply (kDocs _ _ _ K); exact Hx|auto].
Qed.

Lemma drain_inv : forall k r s u s', inv r s -> drain E fuel k s = Ok (u, s') -> inv r s'.
Proof.
  induction k as [|k IH]; simpl; intros r s u s' I H; [discriminate|].
  apply pbind_ok in H. destruct H as (sg & sg' & Hg & H). apply pget_ok in Hg. destruct Hg; subst sg sg'.
  destruct (pQueue s) as [|id rest] eqn:Hq. { apply pret_ok in H. destruct H as [_ ->]. rewrite Hq. exact I. }
  rewrite <- Hq in I. apply pbind_ok in H. destruct H as (u1 & s1 & H1 & H).
  apply parseNext_keeps with (r := r) in H1; auto. destruct H1 as [I1 _]. eapply IH; eauto.
Qed.

Lemma parseDoc_inv : forall parsing rootId n r s', parseDoc E fuel parsing rootId n = Ok (r, s') -> inv rootId s'.
Proof.
  intros parsing rootId n r s' H. unfold parseDoc in H.
  apply pbind_ok in H. destruct H as (g & s1 & H1 & H). apply (st_parseRoot E) in H1.
  apply pbind_ok in H. destruct H as (u & s2 & H2 & H). apply pret_ok in H. destruct H; subst.
  eapply drain_inv; [|exact H2]. apply (kInv _ _ _ H1). apply initP_inv.
Qed.

(* ------------------------------------------------------------------ each document once *)

Definition settled (s : pst) (d : string) : Prop :=
  assoc d (pDone s) = Some true /\ ((exists n, assoc d (pDocs s) = Some n) \/ refDoc d <> d).

Lemma rounds_settled : forall r s l s', rounds E fuel s l s' -> inv r s -> forall d, settled s d -> ~ In d (map fst l).
Proof.
  intros r s l s' H. induction H as [s Hq|s id rest a s0 s1 l s2 Hq Ha Hn Hr IH]; intros I d Hd Hin; [contradiction|].
  destruct (parseNext_keeps r id rest s tt s1 I Hq Hn) as (I1 & _ & Hm).
  cbn [map fst] in Hin. destruct Hin as [->|Hin].
  - destruct I. destruct Hd as [Hd _]. eapply iPending; [|exact Hd]. rewrite Hq. simpl. auto.
  - destruct Hd as [Hd1 Hd2]. eapply IH; eauto. apply Hm; auto.
Qed.

Lemma rounds_once : forall r s l s', rounds E fuel s l s' -> inv r s ->
  forall l1 id l2, l = (l1 ++ (id, true) :: l2)%list -> ~ In id (map fst l2).
Proof.
  intros r s l s' H. induction H as [s Hq|s id rest a s0 s1 l s2 Hq Ha Hn Hr IH]; intros I l1 id' l2 Hl.
  { destruct l1; discriminate. }
  destruct (parseNext_keeps r id rest s tt s1 I Hq Hn) as (I1 & (a' & s0' & Ha' & Hs) & _).
  assert (a' = a) by (unfold taken in Ha'; congruence). subst a'.
  destruct l1 as [|x l1]; injection Hl as Hx Hl.
  - destruct a; [|discriminate]. subst id' l. eapply (rounds_settled r s1 l2 s2 Hr I1). exact Hs.
  - eapply IH; eauto.
Qed.

Lemma drain_rounds : forall k s s', drain E fuel k s = Ok (tt, s') -> exists l, rounds E fuel s l s'.
Proof.
  induction k as [|k IH]; intros s s' H; cbn [drain] in H; [discriminate|].
  apply pbind_ok in H. destruct H as (sg & sg' & Hg & H). apply pget_ok in Hg. destruct Hg; subst sg sg'.
  destruct (pQueue s) as [|id rest] eqn:Hq. { apply pret_ok in H. destruct H as [_ ->]. exists []. constructor. exact Hq. }
  apply pbind_ok in H. destruct H as ([] & s1 & H1 & H). apply IH in H. destruct H as [l H].
  assert (Ha : exists a s0, resolveDocument E id (taken id rest s) = Ok (a, s0)).
  { unfold parseNext in H1. apply pbind_ok in H1. destruct H1 as ([] & sx & Hx & H1). apply pmod_ok in Hx. subst sx.
    apply pbind_ok in H1. destruct H1 as (a & s0 & H1 & _). eauto. }
  destruct Ha as (a & s0 & Ha). eexists. eapply oneMore; eauto.
Qed.

(* ------------------------------------------------------------------ the queue empties *)

Definition settledb (s : pst) (d : string) : bool :=
  match assoc d (pDone s) with Some true => match assoc d (pDocs s) with Some _ => true | None => negb (String.eqb (refDoc d) d) end | _ => false end.
Lemma settledb_iff : forall s d, settledb s d = true <-> settled s d.
Proof.
  intros s d. unfold settledb, settled. destruct (assoc d (pDone s)) as [[]|]; [|split; [discriminate|intros [H _]; discriminate]..].
  destruct (assoc d (pDocs s)) as [n|].
  - split; eauto.
  - rewrite negb_true_iff, String.eqb_neq. split; [auto|]. intros [_ [[n H]|H]]; [discriminate|auto].
Qed.
Definition openIn (U : list string) (s : pst) : nat := List.length (filter (fun d => negb (settledb s d)) U).

Lemma openIn_le : forall U s s', (forall d, settled s d -> settled s' d) -> (openIn U s' <= openIn U s)%nat.
Proof.
  intros U s s' H. unfold openIn. induction U as [|u U IH]; cbn [filter]; [cbn; lia|].
  destruct (settledb s u) eqn:H1.
  - apply settledb_iff, H, settledb_iff in H1. rewrite H1. cbn. exact IH.
  - destruct (settledb s' u); cbn [negb List.length]; lia.
Qed.
Lemma openIn_lt : forall U s s' d, (forall d, settled s d -> settled s' d) -> In d U -> ~ settled s d -> settled s' d ->
  (openIn U s' < openIn U s)%nat.
Proof.
  intros U s s' d H. induction U as [|u U IH]; intros Hin Hn Hs; [contradiction|].
  pose proof (openIn_le U s s' H) as Hle. unfold openIn in *. cbn [filter].
  destruct (settledb s u) eqn:H1.
  - assert (H2 := H1). apply settledb_iff, H, settledb_iff in H2. rewrite H2. cbn [negb].
    destruct Hin as [->|Hin]; [exfalso; apply Hn, settledb_iff, H1|auto].
  - destruct (settledb s' u) eqn:H2; cbn [negb List.length]; [lia|].
    destruct Hin as [->|Hin]; [apply settledb_iff in Hs; congruence|]. apply IH in Hin; auto. lia.
Qed.

Definition universe (ids : list string) : list string := (ids ++ map refDoc ids)%list.

Lemma queue_length : forall r s ids, inv r s -> pxFetchers E = true -> (forall c, permitted E c -> In c ids) ->
  (List.length (pQueue s) <= List.length (universe ids))%nat.
Proof.
  intros r s ids I Hf Hids. apply NoDup_incl_length; [apply I|]. intros d Hd. destruct I.
  destruct (iQueue Hf d Hd) as (c & Hc & [->| ->]); apply Hids in Hc; unfold universe; apply in_or_app; [auto|]. right. apply in_map; auto.
Qed.

Lemma parseNext_no_timeout : forall id rest s,
  (forall p d n s, pxFetch E p d = Some n -> parseRoot E fuel n s <> Timeout) -> parseNext E fuel id rest s <> Timeout.
Proof.
  intros id rest s Hp. unfold parseNext, pbind, pmod. unfold resolveDocument.
  destruct (String.eqb (refDoc id) "" || negb (pxFetchers E)); [cbn; discriminate|].
  destruct (pxFetch E _ _) as [n|] eqn:Hx; [|cbn; discriminate].
  unfold pbind, addDocument, pmod, pret.
  match goal with |- match match parseRoot E fuel n ?st with _ => _ end with _ => _ end <> _ => pose proof (Hp _ _ _ st Hx) as Hr; destruct (parseRoot E fuel n st) as [[a s1]| |] end.
  - destruct (negb (isBad a)); discriminate.
  - discriminate.
  - contradiction.
Qed.

Lemma drain_terminates : forall r ids k s, inv r s -> (forall c, permitted E c -> In c ids) ->
  (forall p d n s, pxFetch E p d = Some n -> parseRoot E fuel n s <> Timeout) ->
  (List.length (pQueue s) + openIn (universe ids) s * S (List.length (universe ids)) < k)%nat ->
  drain E fuel k s <> Timeout.
Proof.
  intros r ids. induction k as [|k IH]; intros s I Hids Hp Hk; [lia|].
  cbn [drain]. unfold pbind at 1, pget. destruct (pQueue s) as [|id rest] eqn:Hq; [discriminate|].
  unfold pbind. destruct (parseNext E fuel id rest s) as [[[] s1]| |] eqn:Hn; [|discriminate|].
  2:{ exfalso. eapply parseNext_no_timeout; eauto. }
  rewrite <- Hq in I. destruct (parseNext_keeps r id rest s tt s1 I Hq Hn) as (I1 & (a & s0 & Ha & Hs) & Hm).
  apply IH; auto.
  assert (Hmono : forall d, settled s d -> settled s1 d) by (intros d [H1 H2]; apply Hm; auto).
  destruct a as [n|m].
  - assert (Hf : pxFetchers E = true).
    { apply resolveDocument_ok in Ha. destruct Ha as [[_ [m Hm']]|[Hf _]]; [discriminate|exact Hf]. }
    pose proof (queue_length r s1 ids I1 Hf Hids) as Hlen.
    assert (Hid : In id (universe ids)).
    { destruct I. destruct (iQueue Hf id) as (c & Hc & Hid). { rewrite Hq. simpl. auto. }
      apply Hids in Hc. unfold universe. apply in_or_app. destruct Hid as [->| ->]; [auto|]. right. apply in_map; auto. }
    assert (Hns : ~ settled s id).
    { intros [Hd _]. destruct I. eapply iPending; [|exact Hd]. rewrite Hq. simpl. auto. }
    pose proof (openIn_lt (universe ids) s s1 id Hmono Hid Hns Hs) as Hlt. nia.
  - destruct Hs as [Hs _]. rewrite Hs. pose proof (openIn_le (universe ids) s s1 Hmono) as Hle. cbn [List.length] in Hk. nia.
Qed.
End Docs.
