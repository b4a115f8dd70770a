(* What merging does to each keyword. *)
From Coq Require Import ZArith List String Bool Lia.
From Verif Require Import Base Float64 Json Schema Util Number Gen Codec PState PFacts RefPath Merge NotMerge Parse ParseKeep SpecSchema.
Import ListNotations.
Open Scope string_scope.
Open Scope Z_scope.

Lemma mergeEnum_shape : forall m n, exists en co, fst (mergeEnum m n) = set_sConst co (set_sEnum en m).
Proof.
  intros. assert (I : m = set_sConst (sConst m) (set_sEnum (sEnum m) m)) by (destruct m; reflexivity).
  assert (Hp : forall l, exists en co, putEnum l m = set_sConst co (set_sEnum en m)).
  { intros [|a [|b l]]; unfold putEnum; eauto. }
  unfold mergeEnum. destruct (collectEnum m) as [l|], (collectEnum n) as [r|]; cbn [fst]; eauto.
  destruct (intersectEnum l r) as [|x t]; cbn [fst]; eauto.
Qed.

Lemma mergeNot_shape : forall m n, exists nt mn, mergeNot m n = set_sMergedNot mn (set_sNot nt m).
Proof.
  intros m n.
  assert (I : forall k : schemaNode, k = set_sMergedNot (sMergedNot k) (set_sNot (sNot k) k)) by (destruct k; reflexivity).
  unfold mergeNot.
  assert (H1 : exists nt mn, (match sNot n with
    | None => m
    | Some x => match sNot m, sMergedNot m with
        | Some y, l => set_sNot None (set_sMergedNot (l ++ [y; x]) m)
        | None, (_ :: _) as l => set_sMergedNot (l ++ [x]) m
        | None, [] => set_sNot (Some x) m end end) = set_sMergedNot mn (set_sNot nt m)).
  { destruct (sNot n).
    - destruct (sNot m) eqn:E1; [eexists; eexists; reflexivity|].
      destruct (sMergedNot m) eqn:E2; [exists (Some s), (sMergedNot m)|exists (sNot m); eexists]; reflexivity.
    - eexists; eexists. apply I. }
  destruct H1 as (nt & mn & H1). rewrite H1.
  destruct (sMergedNot n) eqn:E; [eauto|].
  cbn [sNot set_sMergedNot set_sNot]. destruct nt; eexists; eexists; reflexivity.
Qed.

(* the two fields mergeNot changes depend on the same two fields *)
Definition mergedNots (a : option schemaNode) (l : list schemaNode) (b : option schemaNode) (l' : list schemaNode) : option schemaNode * list schemaNode :=
  let '(a1, l1) :=
    match b with
    | None => (a, l)
    | Some x => match a, l with Some y, _ => (None, (l ++ [y; x])%list) | None, _ :: _ => (None, (l ++ [x])%list) | None, [] => (Some x, []) end
    end in
  match l', a1 with
  | [], _ => (a1, l1)
  | _, Some y => (None, (l1 ++ [y] ++ l')%list)
  | _, None => (None, (l1 ++ l')%list)
  end.
Lemma mergeNot_nots : forall m n,
  sNot (mergeNot m n) = fst (mergedNots (sNot m) (sMergedNot m) (sNot n) (sMergedNot n)) /\
  sMergedNot (mergeNot m n) = snd (mergedNots (sNot m) (sMergedNot m) (sNot n) (sMergedNot n)).
Proof.
  intros m n. unfold mergeNot, mergedNots.
  destruct (sNot n) as [x|], (sMergedNot n) as [|x' l'].
  - destruct (sNot m) eqn:E; [split; reflexivity|]. destruct (sMergedNot m) eqn:E2; split; cbn [sNot sMergedNot set_sNot set_sMergedNot fst snd]; auto.
  - destruct (sNot m) eqn:E; [split; reflexivity|]. destruct (sMergedNot m) eqn:E2; cbn [sNot sMergedNot set_sNot set_sMergedNot]; rewrite ?E, ?E2; split; cbn [sNot sMergedNot set_sNot set_sMergedNot fst snd]; auto; rewrite ?E; reflexivity.
  - split; reflexivity.
  - destruct (sNot m) eqn:E; split; cbn [sNot sMergedNot set_sNot set_sMergedNot fst snd]; auto.
Qed.

Section Rec.
Variable rec : list schemaNode -> P schemaNode.

(* all the fields of the merged node *)
Lemma mergeInto_fields : forall m n s m' s', mergeInto rec m n s = Ok (m', s') ->
  exists props addp patp pre its addi unev cont nt mn mi s1 s2 s3 s4 s5 s6 s7 s8 s9,
  s1 = (if snd (mergeEnum (set_sType (mergeTypes (sType m) (sType n)) m) n) then withErrs (((pParsing s, pPath s ++ "/config_merge_error"), "enum/const") :: pErrs s) s else s) /\
  mergeMap rec (sProperties m) (sProperties n) s1 = Ok (props, s2) /\
  mergeNof rec (sAdditionalProperties m) (sAdditionalProperties n) s2 = Ok (addp, s3) /\
  mergeMap rec (sPatternProperties m) (sPatternProperties n) s3 = Ok (patp, s4) /\
  mergePrefix rec (sPrefixItems m) (sPrefixItems n) s4 = Ok (pre, s5) /\
  mergeItems rec (sItems m) (sItems n) s5 = Ok (its, s6) /\
  mergeNof rec (sAdditionalItems m) (sAdditionalItems n) s6 = Ok (addi, s7) /\
  mergeNof rec (sUnevaluatedItems m) (sUnevaluatedItems n) s7 = Ok (unev, s8) /\
  mergePtr rec (sContains m) (sContains n) s8 = Ok (cont, s9) /\
  (exists fields, warnAll fields s9 = Ok (tt, s')) /\
  m' = mkNode (mergeTypes (sType m) (sType n)) (getPtr (sLength n) (sLength m)) props addp patp
    (maxIntPtr (sMinProperties n) (sMinProperties m)) (minIntPtr (sMaxProperties n) (sMaxProperties m))
    (mergeSlicePtrs (sRequired m) (sRequired n)) (getPtr (sPattern n) (sPattern m)) (getPtr (sFormat n) (sFormat m))
    (maxIntPtr (sMinLength n) (sMinLength m)) (minIntPtr (sMaxLength n) (sMaxLength m))
    (maxFloatPtr (sMinimum n) (sMinimum m)) (minFloatPtr (sMaximum n) (sMaximum m))
    (maxFloatPtr (sExclusiveMinimum n) (sExclusiveMinimum m)) (minFloatPtr (sExclusiveMaximum n) (sExclusiveMaximum m))
    (findHcf (sMultipleOf n) (sMultipleOf m)) its
    (maxIntPtr (sMinItems n) (sMinItems m)) (minIntPtr (sMaxItems n) (sMaxItems m)) cont
    (maxIntPtr (sMinContains n) (sMinContains m)) (minIntPtr (sMaxContains n) (sMaxContains m)) pre addi unev
    (getPtr (sUniqueItems n) (sUniqueItems m))
    (sEnum (fst (mergeEnum m n))) (sConst (fst (mergeEnum m n))) nt
    (mergeSlicePtrs (sAllOf m) (sAllOf n)) (mergeSlicePtrs (sAnyOf m) (sAnyOf n)) (mergeSlicePtrs (sOneOf m) (sOneOf n))
    (getPtr (sRef n) (sRef m)) (sId m) (sDefs m) (sDefinitions m) (sIf m) (sThen m) (sElse m)
    (sDependentRequired m) (sDependentSchemas m) mi mn (mergeConstraints (sConstraints m) (sConstraints n)) /\
  mi = sMergedIf (mergeIf (pPath s9) m n) /\ nt = sNot (mergeNot m n) /\ mn = sMergedNot (mergeNot m n).
Proof.
  intros m n s m' s' H. unfold mergeInto in H.
  set (m1 := set_sType (mergeTypes (sType m) (sType n)) m) in *.
  assert (Henum : sEnum (fst (mergeEnum m1 n)) = sEnum (fst (mergeEnum m n)) /\ sConst (fst (mergeEnum m1 n)) = sConst (fst (mergeEnum m n))).
  { unfold mergeEnum, collectEnum. subst m1. cbn [sEnum sConst set_sType].
    assert (forall l, sEnum (putEnum l (set_sType (mergeTypes (sType m) (sType n)) m)) = sEnum (putEnum l m) /\
                      sConst (putEnum l (set_sType (mergeTypes (sType m) (sType n)) m)) = sConst (putEnum l m))
      by (intros [|? [|? ?]]; split; reflexivity).
    destruct (sEnum m), (sConst m), (sEnum n), (sConst n); cbn [fst]; auto;
    try (destruct (intersectEnum _ _); cbn [fst]; auto). }
  destruct (mergeEnum m1 n) as [m2 emptied] eqn:Em.
  pose proof (mergeEnum_shape m1 n) as (en & co & Hsh). rewrite Em in *. cbn [fst snd] in *. subst m2.
  destruct Henum as [He Hc].
  cbn [sEnum sConst set_sConst set_sEnum] in He, Hc.
  subst m1.
  apply pbind_ok in H. destruct H as (u & s1 & Hw & H).
  apply pbind_ok in H. destruct H as (props & s2 & Hprops & H).
  apply pbind_ok in H. destruct H as (addp & s3 & Haddp & H).
  apply pbind_ok in H. destruct H as (patp & s4 & Hpatp & H).
  apply pbind_ok in H. destruct H as (pre & s5 & Hpre & H).
  apply pbind_ok in H. destruct H as (its & s6 & Hits & H).
  apply pbind_ok in H. destruct H as (addi & s7 & Haddi & H).
  apply pbind_ok in H. destruct H as (unev & s8 & Hunev & H).
  apply pbind_ok in H. destruct H as (cont & s9 & Hcont & H).
  match type of H with context [mergeNot ?M n] => set (M1 := M) in *; destruct (mergeNot_shape M1 n) as (nt & mn & Hnt) end.
  rewrite Hnt in H.
  apply pbind_ok in H. destruct H as (sg & sg' & Hg & H). apply pget_ok in Hg. destruct Hg; subst sg sg'.
  apply pbind_ok in H. destruct H as (u' & s10 & Hwarn & H).
  assert (Hn1 : nt = sNot (mergeNot m n)).
  { replace nt with (sNot (mergeNot M1 n)) by (rewrite Hnt; reflexivity). rewrite !(proj1 (mergeNot_nots _ _)). reflexivity. }
  assert (Hn2 : mn = sMergedNot (mergeNot m n)).
  { replace mn with (sMergedNot (mergeNot M1 n)) by (rewrite Hnt; reflexivity). rewrite !(proj2 (mergeNot_nots _ _)). reflexivity. }
  exists props, addp, patp, pre, its, addi, unev, cont, nt, mn, (sMergedIf (mergeIf (pPath s9) m n)), s1, s2, s3, s4, s5, s6, s7, s8, s9.
  apply pret_ok in H. destruct H as [Hm ->]. subst u' || idtac.
  split. { destruct emptied; [|apply pret_ok in Hw; tauto]. apply pmod_ok in Hw. exact Hw. }
  split; [exact Hprops|]. split; [exact Haddp|]. split; [exact Hpatp|]. split; [exact Hpre|].
  split; [exact Hits|]. split; [exact Haddi|]. split; [exact Hunev|]. split; [exact Hcont|].
  split. { destruct u'. eexists. exact Hwarn. }
  split; [|repeat split; auto].
  subst m'. rewrite <- He, <- Hc. subst M1. clear.
  destruct (sRef n); reflexivity.
Qed.
End Rec.

(* ------------------------------------------------------------------ properties of all conjuncts *)
Definition deep (Q : schemaNode -> Prop) (n : schemaNode) : Prop := forall c, conjunct c n -> Q c.
Definition branches (n : schemaNode) : list schemaNode := get_or (sAllOf n) [].

Lemma deep_eq : forall Q n, deep Q n <-> Q n /\ forall b, In b (branches n) -> deep Q b.
Proof.
  intros Q n. unfold deep, branches. split.
  - intros H. split; [apply H; constructor|]. intros b Hb c Hc. destruct (sAllOf n) eqn:E; [|destruct Hb]. apply H. eapply cj_branch; eauto.
  - intros [H1 H2] c Hc. inversion Hc; subst; auto. rewrite H in H2. eapply H2; eauto.
Qed.

Lemma mergeSlice_In : forall A (a b : option (list A)) x,
  In x (get_or (mergeSlicePtrs a b) []) <-> In x (get_or a []) \/ In x (get_or b []).
Proof.
  intros. unfold mergeSlicePtrs. rewrite <- in_app_iff. destruct (get_or a [] ++ get_or b [])%list; simpl; tauto.
Qed.

Section Conj.
Variable E : penv.
Variable Q G : schemaNode -> Prop.
(* a condition on the recorded errors that stays true once it is *)
Variable Zerrs : list ((string * string) * string) -> Prop.
Hypothesis Zapp : forall l l', Zerrs l -> Zerrs (l' ++ l)%list.
Let Z (s : pst) : Prop := Zerrs (pErrs s).
Lemma Zmono : forall s s', keeps E s s' -> Z s -> Z s'.
Proof. intros s s' K H. destruct (kErrs _ _ _ K) as [l Hl]. unfold Z in *. rewrite Hl. auto. Qed.
Hypothesis Qempty : Q emptyNode.
Hypothesis Gempty : G emptyNode.
Hypothesis into : forall rec, (forall l, stable E (rec l)) -> forall m n s m' s', mergeInto rec m n s = Ok (m', s') ->
  G m -> G n -> G m' /\ ((Q m' <-> Q m /\ Q n) \/ Z s').
Hypothesis allOfQ : forall a n, Q (set_sAllOf a n) <-> Q n.
Hypothesis allOfG : forall a n, G (set_sAllOf a n) <-> G n.

Definition plain (n : schemaNode) : Prop := deep (fun c => sRef c = None /\ G c) n.

Lemma plain_eq : forall n, plain n <-> (sRef n = None /\ G n) /\ forall b, In b (branches n) -> plain b.
Proof. intros. apply deep_eq. Qed.

Lemma deep_into : forall rec, (forall l, stable E (rec l)) -> forall m n s m' s', mergeInto rec m n s = Ok (m', s') ->
  plain m -> plain n -> plain m' /\ ((deep Q m' <-> deep Q m /\ deep Q n) \/ Z s').
Proof.
  intros rec Hs m n s m' s' H Hm Hn. rewrite plain_eq in Hm, Hn.
  destruct Hm as [[Hm1 Hm2] Hm3], Hn as [[Hn1 Hn2] Hn3].
  destruct (into rec Hs m n s m' s' H Hm2 Hn2) as [HG HQ].
  apply mergeInto_fields in H. destruct H as (props & addp & patp & pre & its & addi & unev & cont & nt & mn & mi & s1 & s2 & s3 & s4 & s5 & s6 & s7 & s8 & s9 & _ & _ & _ & _ & _ & _ & _ & _ & _ & _ & Em & _).
  assert (Hr : sRef m' = None) by (rewrite Em; cbn [sRef]; rewrite Hm1, Hn1; reflexivity).
  assert (Hb : forall b, In b (branches m') <-> In b (branches m) \/ In b (branches n)).
  { intros b. unfold branches. rewrite <- mergeSlice_In. rewrite Em. cbn [sAllOf]. reflexivity. }
  split. { rewrite plain_eq. split; [auto|]. intros b B. apply Hb in B. destruct B; auto. }
  destruct HQ as [HQ|]; [left|right; auto].
  rewrite (deep_eq Q m'), (deep_eq Q m), (deep_eq Q n), HQ.
  split.
  - intros [[Q1 Q2] Q3]. repeat split; auto; intros; apply Q3, Hb; auto.
  - intros [[Q1 Q2] [Q3 Q4]]. split; [auto|]. intros b B. apply Hb in B. destruct B; auto.
Qed.

Lemma deep_none : forall n, (deep Q (set_sAllOf None n) <-> Q n) /\ (plain n -> plain (set_sAllOf None n)).
Proof.
  intros. split.
  - rewrite deep_eq, allOfQ. split; [tauto|]. intros. split; auto. intros b []. 
  - intros H. rewrite plain_eq in *. destruct H as [[H1 H2] H3]. split; [split; [exact H1|apply allOfG; auto]|]. intros b [].
Qed.

Lemma deep_loop : forall rec fuel, (forall l, stable E (rec l)) -> forall nodes m s m' s', mergeLoop E rec fuel m nodes s = Ok (m', s') ->
  plain m -> (forall n, In n nodes -> plain n) ->
  plain m' /\ ((deep Q m' <-> deep Q m /\ forall n, In n nodes -> deep Q n) \/ Z s').
Proof.
  intros rec fuel Hs. induction nodes as [|n r IH]; simpl; intros m s m' s' H Hm Hn.
  - apply pret_ok in H. destruct H; subst. split; auto. left. intuition.
  - apply pbind_ok in H. destruct H as (m1 & s1 & H1 & H).
    unfold mergeOne, resolveNodeRef in H1. assert (Pn : plain n) by (apply Hn; auto).
    assert (R : sRef n = None) by (apply plain_eq in Pn; tauto). rewrite R in H1.
    apply pbind_ok in H1. destruct H1 as ([n1 res] & s2 & H2 & H1). apply pret_ok in H2. destruct H2 as [H2 ->]. inversion H2; subst n1 res.
    apply pbind_ok in H1. destruct H1 as (n2 & s3 & H3 & H1).
    assert (n2 = n /\ s3 = s) as [-> ->] by (destruct (sAllOf n); apply pret_ok in H3; tauto).
    apply pbind_ok in H1. destruct H1 as (m2 & s4 & H4 & H1). apply pret_ok in H1. destruct H1; subst m2 s4.
    destruct (deep_into rec Hs _ _ _ _ _ H4 Hm Pn) as [P1 D1].
    destruct (IH _ _ _ _ H P1 (fun n' i => Hn n' (or_intror i))) as [P2 D2]. split; auto.
    destruct D1 as [D1|D1].
    + destruct D2 as [D2|]; [left|auto]. rewrite D2, D1. split.
      * intros [[A B] C]. split; auto. intros n' [<-|I]; auto.
      * intros [A B]. split; [split|]; auto.
    + right. eapply Zmono; [|exact D1]. eapply st_mergeLoop; eauto.
Qed.

Definition mergeSpec (rec : list schemaNode -> P schemaNode) : Prop :=
  forall nodes s m s', rec nodes s = Ok (m, s') -> (forall n, In n nodes -> plain n) ->
  plain m /\ ((deep Q m <-> forall n, In n nodes -> deep Q n) \/ Z s').

Lemma deep_flatten : forall rec, (forall l, stable E (rec l)) -> mergeSpec rec -> forall f m s m' s', flatten E rec f m s = Ok (m', s') ->
  plain m -> plain m' /\ ((deep Q m' <-> deep Q m) \/ Z s').
Proof.
  intros rec Hs Hr. induction f; simpl; intros m s m' s' H Hm; [discriminate|].
  destruct (sAllOf m) as [[|x l]|] eqn:Ea; try (apply pret_ok in H; destruct H; subst; split; [auto|left; tauto]).
  apply pbind_ok in H. destruct H as (sg & sg' & Hg & H). apply pget_ok in Hg. destruct Hg; subst sg sg'.
  destruct (pxMaxDepth E <? pDepth s + 1). { apply pret_ok in H; destruct H; subst; split; [auto|left; tauto]. }
  apply pbind_ok in H. destruct H as (u & s1 & H1 & H). apply pmod_ok in H1.
  apply pbind_ok in H. destruct H as (m1 & s2 & H2 & H).
  apply pbind_ok in H. destruct H as (sg & sg' & Hg & H). apply pget_ok in Hg. destruct Hg; subst sg sg'.
  apply pbind_ok in H. destruct H as (u' & s3 & H3 & H). apply pmod_ok in H3.
  assert (Hm' := Hm). rewrite plain_eq in Hm'. destruct Hm' as [_ Hb]. unfold branches in Hb. rewrite Ea in Hb. cbn [get_or] in Hb.
  assert (Hl : forall n, In n ((x :: l) ++ [set_sAllOf None m])%list -> plain n).
  { intros n Hi. apply in_app_iff in Hi. destruct Hi as [Hi|[<-|[]]]; auto. apply deep_none; auto. }
  destruct (Hr _ _ _ _ H2 Hl) as [P1 D1].
  destruct (IHf _ _ _ _ H P1) as [P2 D2]. split; auto.
  assert (D3 : deep Q m <-> forall n, In n ((x :: l) ++ [set_sAllOf None m])%list -> deep Q n).
  { rewrite deep_eq. unfold branches. rewrite Ea. cbn [get_or]. split.
    - intros [A B] n Hi. apply in_app_iff in Hi. destruct Hi as [Hi|[<-|[]]]; auto. apply deep_none; auto.
    - intros A. split. { apply (proj1 (proj1 (deep_none m))). apply A. apply in_app_iff. simpl. auto. }
      intros. apply A. apply in_app_iff. auto. }
  destruct D1 as [D1|D1].
  - destruct D2 as [D2|]; auto. left. rewrite D2, D1, D3. tauto.
  - right. eapply Zmono; [eapply st_flatten; eauto|]. subst s3. exact D1.
Qed.

Theorem merge_conj : forall f, mergeSpec (merge E f).
Proof.
  induction f; intros nodes s m s' H Hn; simpl in H; [discriminate|].
  apply pbind_ok in H. destruct H as (m1 & s1 & H1 & H).
  assert (Pe : plain emptyNode). { apply plain_eq. split; [split; [reflexivity|auto]|]. intros b []. }
  destruct (deep_loop _ _ (st_merge E f) _ _ _ _ _ H1 Pe Hn) as [P1 D1].
  destruct (deep_flatten _ (st_merge E f) IHf _ _ _ _ _ H P1) as [P2 D2]. split; auto.
  destruct D1 as [D1|D1].
  - destruct D2 as [D2|]; auto. left. rewrite D2, D1. split; [tauto|]. intros A. split; auto.
    apply deep_eq. split; auto. intros b [].
  - right. eapply Zmono; [eapply st_flatten; eauto using st_merge|]. exact D1.
Qed.
End Conj.
