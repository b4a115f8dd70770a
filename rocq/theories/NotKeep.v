(* A negation leaves the other keywords of its schema in force. *)
From Coq Require Import ZArith Reals List String Bool Lia.
From Flocq Require Import Core BinarySingleNaN.
From Verif Require Import Base Float64 Json Schema Util Number Gen Codec CodecFacts PState PFacts RefPath Merge NotMerge Parse ParseKeep FloatFacts SpecNumber SpecSchema SpecParse.
From Verif Require Import MergeFacts MergeProps JEq SpecMerge MergeValid SpecRun NotProps ConstrProps NotValues SpecNegate.
Import ListNotations.
Open Scope string_scope.
Open Scope Z_scope.

Lemma quiet_refl : forall s, quiet s s. Proof. reflexivity. Qed.
Lemma within_left : forall a b, within a (mergeColl a b).
Proof.
  intros a b. repeat split; cbn; intros p H.
  - apply addKeys_In; auto using str_eq.
  - apply addKeys_In; auto using str_eq.
  - apply addKeys_In; auto using oenc_eq.
  - apply in_or_app. auto.
Qed.

(* ------------------------------------------------------------------ the parts of one step *)
Section Runs.
Variable E : penv.
Variable rec : schemaNode -> schemaNode -> P nstate.
Hypothesis Hrec : forall n x, stable E (rec n x).

Definition step6 (n x : schemaNode) (c : ccoll) (s0 s' : pst) (m1 m2 m3 m4 m5 m6 : schemaNode) : Prop :=
  exists t c1 c2 c3 c4 c5 s1 s2 s3 s4 s5 s6,
    resolveType n x = Some t /\
    (notApplyString E (set_sType (Some t) emptyNode, emptyColl) n x s0 = Ok ((m1, c1), s1) /\ quiet s0 s1) /\
    (notApplyNumber (m1, c1) n x s1 = Ok ((m2, c2), s2) /\ quiet s1 s2) /\
    (notApplyEnum (m2, c2) n x s2 = Ok ((m3, c3), s3) /\ quiet s2 s3) /\
    (notApplyConst (m3, c3) n x s3 = Ok ((m4, c4), s4) /\ quiet s3 s4) /\
    (notApplyArray rec (m4, c4) n x s4 = Ok ((m5, c5), s5) /\ quiet s4 s5) /\
    (notApplyObject rec (m5, c5) n x s5 = Ok ((m6, c), s6) /\ quiet s5 s6) /\ quiet s6 s'.

Lemma notStep_runs : forall n x s m c s', notStep E rec n x s = Ok ((m, c), s') -> quiet s s' ->
  exists m1 m2 m3 m4 m5 m6, step6 n x c s s' m1 m2 m3 m4 m5 m6 /\ m = keepFields n m6.
Proof.
  intros n x s m c s' H Q. unfold notStep in H.
  apply (quiet_bind E) in H; [| apply st_notApplyType | |exact Q].
  2:{ intros [t|]; [|apply st_ret]. apply st_bind; [apply st_notApplyString|intros].
      apply st_bind; [apply st_notApplyNumber|intros]. apply st_bind; [apply st_notApplyEnum|intros].
      apply st_bind; [apply st_notApplyConst|intros]. apply st_bind; [apply st_notApplyArray; auto|intros].
      apply st_bind; [apply st_notApplyObject; auto|intros]. apply st_bind; [apply st_warnUnsupported|intros]. apply st_ret. }
  destruct H as (t & s1 & H1 & H & Q1 & Q2). destruct t as [m1|].
  2:{ unfold notApplyType in H1. destruct (resolveType n x).
      - apply pret_ok in H1. destruct H1 as [D _]. discriminate.
      - apply pbind_ok in H1. destruct H1 as (u & s2 & X & Y). apply pret_ok in Y. destruct Y as [_ ->].
        exfalso. eapply quiet_not; [|exact Q1]. eapply reports_sub. exact X. }
  unfold notApplyType in H1. destruct (resolveType n x) as [t|] eqn:ET.
  2:{ apply pbind_ok in H1. destruct H1 as (u & s2 & X & Y). apply pret_ok in Y. destruct Y as [D _]. discriminate. }
  apply pret_ok in H1. destruct H1 as [D ->]. injection D as ->.
  apply (quiet_bind E) in H; [| apply st_notApplyString | |exact Q2].
  2:{ intros. apply st_bind; [apply st_notApplyNumber|intros]. apply st_bind; [apply st_notApplyEnum|intros].
      apply st_bind; [apply st_notApplyConst|intros]. apply st_bind; [apply st_notApplyArray; auto|intros].
      apply st_bind; [apply st_notApplyObject; auto|intros]. apply st_bind; [apply st_warnUnsupported|intros]. apply st_ret. }
  destruct H as ([m2 c2] & s2 & H2 & H & Q3 & Q4).
  apply (quiet_bind E) in H; [| apply st_notApplyNumber | |exact Q4].
  2:{ intros. apply st_bind; [apply st_notApplyEnum|intros].
      apply st_bind; [apply st_notApplyConst|intros]. apply st_bind; [apply st_notApplyArray; auto|intros].
      apply st_bind; [apply st_notApplyObject; auto|intros]. apply st_bind; [apply st_warnUnsupported|intros]. apply st_ret. }
  destruct H as ([m3 c3] & s3 & H3 & H & Q5 & Q6).
  apply (quiet_bind E) in H; [| apply st_notApplyEnum | |exact Q6].
  2:{ intros. apply st_bind; [apply st_notApplyConst|intros]. apply st_bind; [apply st_notApplyArray; auto|intros].
      apply st_bind; [apply st_notApplyObject; auto|intros]. apply st_bind; [apply st_warnUnsupported|intros]. apply st_ret. }
  destruct H as ([m4 c4] & s4 & H4 & H & Q7 & Q8).
  apply (quiet_bind E) in H; [| apply st_notApplyConst | |exact Q8].
  2:{ intros. apply st_bind; [apply st_notApplyArray; auto|intros].
      apply st_bind; [apply st_notApplyObject; auto|intros]. apply st_bind; [apply st_warnUnsupported|intros]. apply st_ret. }
  destruct H as ([m5 c5] & s5 & H5 & H & Q9 & Q10).
  apply (quiet_bind E) in H; [| apply st_notApplyArray; auto | |exact Q10].
  2:{ intros. apply st_bind; [apply st_notApplyObject; auto|intros]. apply st_bind; [apply st_warnUnsupported|intros]. apply st_ret. }
  destruct H as ([m6 c6] & s6 & H6 & H & Q11 & Q12).
  apply (quiet_bind E) in H; [| apply st_notApplyObject; auto | |exact Q12].
  2:{ intros. apply st_bind; [apply st_warnUnsupported|intros]. apply st_ret. }
  destruct H as ([m7 c7] & s7 & H7 & H & Q13 & Q14).
  apply pbind_ok in H. destruct H as (u & s8 & _ & H). apply pret_ok in H. destruct H as [H ->].
  apply pair_equal_spec in H. destruct H as [-> ->]. cbn [fst snd].
  exists m2, m3, m4, m5, m6, m7. split; [|reflexivity].
  exists t, c2, c3, c4, c5, c6, s2, s3, s4, s5, s6, s7. auto 20.
Qed.

(* a sub-schema *)
Lemma notSub_run : forall sc a b s m s', notSub rec sc a b s = Ok (m, s') -> quiet s s' ->
  exists m0 c k s1 s2, rec a b s1 = Ok ((m0, c), s2) /\ quiet s1 s2 /\ m = set_sConstraints (Some k) m0 /\ within c k.
Proof.
  intros sc a b s m s' H Q. unfold notSub in H.
  apply pbind_ok in H. destruct H as (u & s1 & H1 & H). apply pbind_ok in H. destruct H as ([m0 c] & s2 & H2 & H).
  apply pbind_ok in H. destruct H as (u' & s3 & H3 & H). apply pret_ok in H. destruct H as [-> ->].
  unfold pushPath, pmod in H1. unfold popPath, pmod in H3.
  assert (E1 : pErrs s1 = pErrs s) by (injection H1 as _ <-; reflexivity).
  assert (E2 : pErrs s3 = pErrs s2) by (injection H3 as _ <-; reflexivity).
  exists m0, c. eexists. exists s1, s2. split; [exact H2|]. split; [unfold quiet in *; congruence|]. split; [reflexivity|].
  destruct (sConstraints a); [apply within_left|apply within_refl].
Qed.
End Runs.

(* ------------------------------------------------------------------ the parts, keyword by keyword *)
Lemma feqb_zero : forall q, is_finite q = true -> B2R q <> 0%R -> feqb q fzero = false.
Proof. intros q F N. apply feqb_neq; [exact F|reflexivity|]. change (val fzero) with 0%R. exact N. Qed.

Lemma num_run : forall m c n x s m' c' s', plainNumber x -> sMultipleOf m = None ->
  (forall q, sMultipleOf n = Some q -> is_finite q = true /\ B2R q <> 0%R) ->
  notApplyNumber (m, c) n x s = Ok ((m', c'), s') -> sEnum m' = sEnum m /\ sMultipleOf m' = sMultipleOf n.
Proof.
  intros m c n x s m' c' s' PN M0 HQ H. pose proof (plain_noMultiple x PN) as PM. unfold notApplyNumber in H.
  destruct (boundsFloat _ _ _ _ _ _ _ _ _) as [[[[mn mx] amn] amx] w].
  apply pbind_ok in H. destruct H as (u & s1 & _ & H).
  unfold hasNegatedMultiple in PM. apply orb_false_iff in PM. destruct PM as [P1 P2]. apply negb_false_iff in P1.
  rewrite P2 in H. rewrite P1 in H. cbn [andb negb] in H. rewrite P1 in H. cbn [negb andb] in H. rewrite !andb_false_r in H. cbn [andb] in H.
  rewrite andb_true_r in H.
  assert (K : forall b : bool, (if b then pret (set_sMinimum mn (set_sMaximum mx m), c)
      else pret (set_sMultipleOf (sMultipleOf n) (set_sMinimum mn (set_sMaximum mx m)), c)) s1 = Ok ((m', c'), s') ->
      (b = true -> sMultipleOf n = None) -> sEnum m' = sEnum m /\ sMultipleOf m' = sMultipleOf n).
  { intros [|] X B; apply pret_ok in X; destruct X as [X _]; apply pair_equal_spec in X; destruct X as [-> _]; cbn.
    - rewrite (B eq_refl). auto.
    - auto. }
  apply K in H; auto. clear -HQ. intros B. apply negb_true_iff, negb_false_iff in B.
  destruct (sMultipleOf n) as [q|]; auto. destruct (HQ q eq_refl) as [F N]. cbn [get_or] in B.
  rewrite (feqb_zero q F N) in B. cbn [andb] in B. rewrite (feqb_zero q F N) in B. discriminate B.
Qed.

Lemma reread_text : forall v j, decAny j = Some v -> reread v = v.
Proof. intros v j H. unfold reread. rewrite (decAny_enc v (decAny_plain _ _ H)). reflexivity. Qed.

(* the values left of an enum *)
Lemma enum_run : forall m c n x s m' c' s', notApplyEnum (m, c) n x s = Ok ((m', c'), s') -> quiet s s' ->
  (forall l, sEnum n = Some l -> l <> [] -> exists l', sEnum m' = Some (map reread l') /\
     (forall w, In w l' <-> In w l /\ ~ In (marshal w) (map marshal (get_or (sEnum x) [])))) /\
  (sEnum n = None -> sEnum m' = sEnum m) /\
  m' = set_sEnum (sEnum m') m.
Proof.
  intros m c n x s m' c' s' H Q. destruct (notEnum_ok demoPE _ _ _ _ _ _ _ _ H) as (_ & e & EM).
  split; [|split; [|rewrite EM; destruct m; reflexivity]].
  - intros l EN NE. unfold notApplyEnum in H. rewrite EN in H. cbn [get_or] in H.
    set (f := fun v => negb (mem_enc (marshal v) (map marshal (get_or (sEnum x) [])))) in *.
    assert (RS : (match filter f l with [] => run* warnField "not/enum" in pret (m, c) | j :: l0 => pret (set_sEnum (Some (map reread (j :: l0))) m, c) end) s
       = Ok ((m', c'), s')).
    { destruct l as [|a l]; [congruence|]. destruct (sEnum x); exact H. }
    exists (filter f l). split.
    + destruct (filter f l) as [|j l0].
      * apply pbind_ok in RS. destruct RS as (u & s2 & X & Y). apply pret_ok in Y. destruct Y as [_ ->]. exfalso. eapply quiet_warn; eauto.
      * apply pret_ok in RS. destruct RS as [RS _]. apply pair_equal_spec in RS. destruct RS as [-> _]. reflexivity.
    + intros w. rewrite filter_In. unfold f. rewrite negb_true_iff, mem_enc_not_In. reflexivity.
  - intros EN. unfold notApplyEnum in H. rewrite EN in H. destruct (sEnum x) as [ex|].
    2:{ apply pret_ok in H. destruct H as [H _]. apply pair_equal_spec in H. destruct H as [-> _]. reflexivity. }
    cbn [get_or filter] in H.
    assert (W : forall (z : P nstate), z = (run* warnField "not/enum" in pret (m, c)) -> z s = Ok ((m', c'), s') -> sEnum m' = sEnum m).
    { intros z -> X. apply pbind_ok in X. destruct X as (u & s2 & X & Y). apply pret_ok in Y. destruct Y as [_ ->]. exfalso. eapply quiet_warn; eauto. }
    destruct ex as [|b ex]; [eapply W; [reflexivity|exact H]|].
    destruct (sConst n) as [w|].
    + destruct (mem_enc _ _); eapply W; [reflexivity|exact H|reflexivity|exact H].
    + apply pret_ok in H. destruct H as [H _]. apply pair_equal_spec in H. destruct H as [-> _]. reflexivity.
Qed.

(* arrays *)
Section Parts.
Variable E : penv.
Variable rec : schemaNode -> schemaNode -> P nstate.
Hypothesis Hrec : forall n x, stable E (rec n x).

Lemma array_run : forall m c n x s m' c' s', notApplyArray rec (m, c) n x s = Ok ((m', c'), s') -> quiet s s' ->
  exists i1 i2 k1 k2 its un prx une con,
    boundsInt (sMinItems n) (sMaxItems n) (sMinItems x) (sMaxItems x) = (i1, i2, false) /\
    boundsInt (sMinContains n) (sMaxContains n) (sMinContains x) (sMaxContains x) = (k1, k2, false) /\
    (exists a b, notItems rec (sItems n) (sItems x) a = Ok (its, b) /\ quiet a b) /\
    (exists a b, resolveBool (sUniqueItems n) (sUniqueItems x) a = Ok (un, b)) /\
    (exists a b, notPrefix rec (sPrefixItems n) (sPrefixItems x) its a = Ok (prx, b) /\ quiet a b) /\
    (exists a b, notSubPtr rec "/not/contains" (sContains n) (sContains x) a = Ok (con, b) /\ quiet a b) /\
    m' = set_sMinItems i1 (set_sMaxItems i2 (set_sMinContains k1 (set_sMaxContains k2
        (set_sItems its (set_sUniqueItems un (set_sPrefixItems prx (set_sUnevaluatedItems une (set_sContains con m)))))))).
Proof.
  intros m c n x s m' c' s' H Q. unfold notApplyArray in H.
  apply (quiet_bind E) in H; [|apply st_resolveBoundsInt| |exact Q].
  2:{ intros. apply st_bind; [apply st_resolveBoundsInt|intros]. apply st_bind; [apply st_warnIf|intros]. apply st_bind; [apply st_notItems; auto|intros].
      apply st_bind; [apply st_warnIf|intros]. apply st_bind; [apply st_resolveBool|intros]. apply st_bind; [apply st_notPrefix; auto|intros].
      apply st_bind; [apply st_notNof; auto|intros]. apply st_bind; [apply st_notSubPtr; auto|intros]. apply st_ret. }
  destruct H as (bi & s1 & H1 & H & Q1 & Q2).
  apply (quiet_bind E) in H; [|apply st_resolveBoundsInt| |exact Q2].
  2:{ intros. apply st_bind; [apply st_warnIf|intros]. apply st_bind; [apply st_notItems; auto|intros].
      apply st_bind; [apply st_warnIf|intros]. apply st_bind; [apply st_resolveBool|intros]. apply st_bind; [apply st_notPrefix; auto|intros].
      apply st_bind; [apply st_notNof; auto|intros]. apply st_bind; [apply st_notSubPtr; auto|intros]. apply st_ret. }
  destruct H as (bc & s2 & H2 & H & Q3 & Q4).
  set (clash := match fst bc, snd bi with Some _, Some _ => _ | _, _ => _ end) in H.
  apply (quiet_bind E) in H; [|apply st_warnIf| |exact Q4].
  2:{ intros. apply st_bind; [apply st_notItems; auto|intros].
      apply st_bind; [apply st_warnIf|intros]. apply st_bind; [apply st_resolveBool|intros]. apply st_bind; [apply st_notPrefix; auto|intros].
      apply st_bind; [apply st_notNof; auto|intros]. apply st_bind; [apply st_notSubPtr; auto|intros]. apply st_ret. }
  destruct H as (u & s3 & H3 & H & Q5 & Q6).
  apply (quiet_bind E) in H; [|apply st_notItems; auto| |exact Q6].
  2:{ intros. apply st_bind; [apply st_warnIf|intros]. apply st_bind; [apply st_resolveBool|intros]. apply st_bind; [apply st_notPrefix; auto|intros].
      apply st_bind; [apply st_notNof; auto|intros]. apply st_bind; [apply st_notSubPtr; auto|intros]. apply st_ret. }
  destruct H as (its & s4 & H4 & H & Q7 & Q8).
  apply (quiet_bind E) in H; [|apply st_warnIf| |exact Q8].
  2:{ intros. apply st_bind; [apply st_resolveBool|intros]. apply st_bind; [apply st_notPrefix; auto|intros].
      apply st_bind; [apply st_notNof; auto|intros]. apply st_bind; [apply st_notSubPtr; auto|intros]. apply st_ret. }
  destruct H as (u2 & s5 & _ & H & _ & Q9).
  apply (quiet_bind E) in H; [|apply st_resolveBool| |exact Q9].
  2:{ intros. apply st_bind; [apply st_notPrefix; auto|intros].
      apply st_bind; [apply st_notNof; auto|intros]. apply st_bind; [apply st_notSubPtr; auto|intros]. apply st_ret. }
  destruct H as (un & s6 & H6 & H & _ & Q10).
  apply (quiet_bind E) in H; [|apply st_notPrefix; auto| |exact Q10].
  2:{ intros. apply st_bind; [apply st_notNof; auto|intros]. apply st_bind; [apply st_notSubPtr; auto|intros]. apply st_ret. }
  destruct H as (prx & s7 & H7 & H & Q11 & Q12).
  apply (quiet_bind E) in H; [|apply st_notNof; auto| |exact Q12].
  2:{ intros. apply st_bind; [apply st_notSubPtr; auto|intros]. apply st_ret. }
  destruct H as (une & s8 & _ & H & _ & Q13).
  apply (quiet_bind E) in H; [|apply st_notSubPtr; auto|intros; apply st_ret|exact Q13].
  destruct H as (con & s9 & H9 & H & Q14 & _).
  apply pret_ok in H. destruct H as [H _]. apply pair_equal_spec in H. destruct H as [EM _].
  destruct (resolveBoundsInt_ok _ _ _ _ _ _ _ _ H1) as (wi & B1 & R1).
  destruct (resolveBoundsInt_ok _ _ _ _ _ _ _ _ H2) as (wk & B2 & R2).
  destruct wi; [exfalso; eapply quiet_not; [apply R1; auto|exact Q1]|].
  destruct wk; [exfalso; eapply quiet_not; [apply R2; auto|exact Q3]|].
  destruct clash; [exfalso; eapply quiet_warn; [exact H3|exact Q5]|].
  exists (fst bi), (snd bi), (fst bc), (snd bc), its, un, prx, une, con.
  split; [exact B1|]. split; [exact B2|]. split; [eauto|]. split; [eauto|]. split; [eauto|]. split; [eauto|]. exact EM.
Qed.

Lemma object_run : forall m c n x s m' c' s', notApplyObject rec (m, c) n x s = Ok ((m', c'), s') -> quiet s s' -> sProperties m = None ->
  exists p1 p2 props addp,
    boundsInt (sMinProperties n) (sMaxProperties n) (sMinProperties x) (sMaxProperties x) = (p1, p2, false) /\
    (exists a b, notPropsLoop rec (keys (get_or (sProperties n) []) ++ keys (get_or (sProperties x) []))%list
                   (get_or (sProperties n) []) (get_or (sProperties x) []) [] a = Ok (props, b) /\ quiet a b) /\
    (exists a b, notNof rec "/not/additionalProperties" (sAdditionalProperties n) (sAdditionalProperties x) a = Ok (addp, b) /\ quiet a b) /\
    get_or (sProperties m') [] = fold_left (fun acc p => mdelete p acc) (refusedNames n x) props /\
    exists pr, m' = set_sProperties pr (set_sMinProperties p1 (set_sMaxProperties p2 (set_sPatternProperties (sPatternProperties n)
           (set_sAdditionalProperties addp (set_sRequired (sRequired n) m))))).
Proof.
  intros m c n x s m' c' s' H Q PM. unfold notApplyObject in H.
  apply (quiet_bind E) in H; [|apply st_resolveBoundsInt| |exact Q].
  2:{ intros. apply st_bind; [apply st_notPropsLoop; auto|intros]. apply st_bind; [apply st_warnIf|intros]. apply st_bind; [apply st_notNof; auto|intros]. apply st_ret. }
  destruct H as (b & s1 & H1 & H & Q1 & Q2).
  apply (quiet_bind E) in H; [|apply st_notPropsLoop; auto| |exact Q2].
  2:{ intros. apply st_bind; [apply st_warnIf|intros]. apply st_bind; [apply st_notNof; auto|intros]. apply st_ret. }
  destruct H as (props & s2 & H2 & H & Q3 & Q4).
  apply (quiet_bind E) in H; [|apply st_warnIf| |exact Q4].
  2:{ intros. apply st_bind; [apply st_notNof; auto|intros]. apply st_ret. }
  destruct H as (u & s3 & _ & H & _ & Q5).
  apply (quiet_bind E) in H; [|apply st_notNof; auto|intros; apply st_ret|exact Q5].
  destruct H as (addp & s4 & H4 & H & Q6 & _).
  apply pret_ok in H. destruct H as [H _]. apply pair_equal_spec in H. destruct H as [EM _].
  destruct (resolveBoundsInt_ok _ _ _ _ _ _ _ _ H1) as (w & B1 & R1).
  destruct w; [exfalso; eapply quiet_not; [apply R1; auto|exact Q1]|].
  exists (fst b), (snd b), props, addp. split; [exact B1|]. split; [eauto|]. split; [eauto|].
  fold (refusedNames n x) in EM.
  destruct (fold_left (fun acc p => mdelete p acc) (refusedNames n x) props) as [|z r].
  - split; [rewrite EM; cbn; rewrite PM; reflexivity|]. exists None. rewrite EM. clear EM. destruct m. cbn in PM. subst. reflexivity.
  - split; [rewrite EM; reflexivity|]. exists (Some (z :: r)). exact EM.
Qed.

(* the merged properties *)
Lemma props_run : forall ks np xp acc s r s', notPropsLoop rec ks np xp acc s = Ok (r, s') -> quiet s s' ->
  (forall k, In k (keys r) -> In k ks \/ In k (keys acc)) /\
  (forall k, ~ In k ks -> assoc k r = assoc k acc) /\
  (forall k p, In k ks -> assoc k np = Some p ->
     exists q, assoc k r = Some q /\
       match assoc k xp with None => q = p | Some b => exists sc a a', notSub rec sc p b a = Ok (q, a') /\ quiet a a' end).
Proof.
  induction ks as [|k ks IH]; intros np xp acc s r s' H Q; cbn [notPropsLoop] in H.
  - apply pret_ok in H. destruct H as [-> ->]. split; [auto|]. split; [auto|]. intros k p [].
  - destruct (assoc k xp) as [b|] eqn:AX.
    + apply (quiet_bind E) in H; [|apply st_notSub; auto|intros; apply st_notPropsLoop; auto|exact Q].
      destruct H as (q & s1 & H1 & H & Q1 & Q2). destruct (IH _ _ _ _ _ _ H Q2) as (A & B & C). split; [|split].
      * intros k' I. apply A in I. destruct I as [I|I]; [left; right; auto|]. apply massign_keys in I. destruct I as [->|I]; [left; left|]; auto.
      * intros k' N. rewrite B by (intros I; apply N; right; auto). apply assoc_massign_other. intros ->. apply N. left. auto.
      * intros k' p I AP. destruct (in_dec string_dec k' ks) as [I'|N]; [eauto|]. destruct I as [->|I]; [|contradiction].
        exists q. rewrite B, assoc_massign_same by auto. split; auto. rewrite AX. rewrite AP in H1. cbn [get_or] in H1. eauto.
    + destruct (IH _ _ _ _ _ _ H Q) as (A & B & C). split; [|split].
      * intros k' I. apply A in I. destruct I as [I|I]; [left; right; auto|].
        destruct (assoc k np); [apply massign_keys in I; destruct I as [->|I]; [left; left; auto|]|]; auto.
      * intros k' N. rewrite B by (intros I; apply N; right; auto). destruct (assoc k np); auto. apply assoc_massign_other. intros ->. apply N. left. auto.
      * intros k' p I AP. destruct (in_dec string_dec k' ks) as [I'|N]; [eauto|]. destruct I as [->|I]; [|contradiction].
        exists p. rewrite B by auto. rewrite AP, assoc_massign_same, AX. auto.
Qed.
Lemma mdelete_assoc : forall A k k' (l : list (string * A)), assoc k (mdelete k' l) = if String.eqb k k' then None else assoc k l.
Proof.
  intros A k k' l. induction l as [|[z a] l IH]; cbn; [destruct (String.eqb k k'); auto|].
  destruct (String.eqb k' z) eqn:Z.
  - cbn. rewrite IH. apply String.eqb_eq in Z. subst. destruct (String.eqb k z) eqn:Y; auto.
  - cbn. rewrite IH. destruct (String.eqb k z) eqn:Y; auto. apply String.eqb_eq in Y. subst. rewrite (String.eqb_sym z k'), Z. reflexivity.
Qed.
Lemma mdeletes_assoc : forall A k gone (l : list (string * A)), assoc k (fold_left (fun acc p => mdelete p acc) gone l) = if mem_string k gone then None else assoc k l.
Proof.
  intros A k gone. induction gone as [|g gone IH]; intros l; cbn [fold_left]; auto. rewrite IH, mdelete_assoc. cbn [mem_string].
  destruct (String.eqb k g); cbn [orb]; auto. destruct (mem_string k gone); auto.
Qed.

(* the positions *)
Lemma prefix_run : forall np i d xp s r s', notPrefixLoop rec i d np xp s = Ok (r, s') -> quiet s s' ->
  List.length r = Nat.max (List.length np) (List.length xp) /\
  forall j p, nth_error np j = Some p -> exists q sc a a', nth_error r j = Some q /\ notSub rec sc p (nth j xp emptyNode) a = Ok (q, a') /\ quiet a a'.
Proof.
  induction np as [|p np IH]; intros i d xp s r s' H Q.
  - assert (L : List.length r = List.length xp).
    { clear Q. revert i s r H. induction xp as [|b xp IHl]; intros i s r H; cbn [notPrefixLoop] in H.
      - apply pret_ok in H. destruct H as [-> _]. auto.
      - apply pbind_ok in H. destruct H as (q & s1 & _ & H). apply pbind_ok in H. destruct H as (r0 & s2 & H & H2). apply pret_ok in H2. destruct H2 as [-> ->].
        cbn. f_equal. eapply IHl. instantiate (1 := s1). instantiate (1 := i + 1). rewrite <- H. destruct xp; reflexivity. }
    split; [cbn; auto|]. intros [|j] p; discriminate.
  - assert (K : forall b rest, (let* m := notSub rec ("/not/prefixItems/" ++ itoa i) p b in let* r := notPrefixLoop rec (i + 1) d np rest in pret (m :: r)) s = Ok (r, s') ->
       List.length r = S (Nat.max (List.length np) (List.length rest)) /\
       forall j q0, nth_error (p :: np) j = Some q0 -> exists q sc a a', nth_error r j = Some q /\ notSub rec sc q0 (nth j (b :: rest) emptyNode) a = Ok (q, a') /\ quiet a a').
    { intros b rest X. apply (quiet_bind E) in X; [|apply st_notSub; auto| |exact Q].
      2:{ intros. apply st_bind; [apply st_notPrefixLoop; auto|intros; apply st_ret]. }
      destruct X as (q & s1 & X1 & X & Q1 & Q2).
      apply (quiet_bind E) in X; [|apply st_notPrefixLoop; auto|intros; apply st_ret|exact Q2].
      destruct X as (r0 & s2 & X2 & X & Q3 & _). apply pret_ok in X. destruct X as [-> ->].
      destruct (IH _ _ _ _ _ _ X2 Q3) as (L & C). split; [cbn; rewrite L; auto|].
      intros [|j] q0 N; cbn in N |- *.
      { injection N as <-. exists q. do 3 eexists. split; [reflexivity|]. split; [exact X1|exact Q1]. }
      destruct (C j q0 N) as (q1 & sc & a & a' & N1 & N2 & N3). exists q1, sc, a, a'. auto. }
    destruct xp as [|b xp]; cbn [notPrefixLoop] in H.
    + destruct (K emptyNode [] H) as [L C]. split; [cbn in *; lia|]. intros j q0 N. destruct (C j q0 N) as (q & sc & a & a' & N1 & N2 & N3).
      exists q, sc, a, a'. split; auto. split; auto. destruct j as [|[|j]]; auto.
    + destruct (K b xp H) as [L C]. split; [cbn in *; lia|]. exact C.
Qed.
End Parts.

(* ------------------------------------------------------------------ types and numbers *)
Lemma type_back : forall n x t v, properType (sType n) -> resolveType n x = Some t -> okType (Some t) v -> okType (sType n) v.
Proof.
  intros n x t v P H O. destruct (resolved_proper n x t P H) as [PT S]. apply okType_names; auto. apply okType_names in O; auto.
  destruct O as [O|(u & I & T)]; [discriminate|]. right. exists u. split; auto.
Qed.
Lemma integer_left : forall n x t, properType (sType n) -> resolveType n x = Some t -> In "integer" (typeNames (sType n)) ->
  plainNumber x -> In "integer" (typeNames (Some t)) \/ (In "number" (typeNames (sType x)) /\ sType x <> None).
Proof.
  intros n x t P H I [_ PX]. unfold resolveType in H. rewrite (nodeTypes_names n P) in H.
  destruct (filter _ _) as [|a r] eqn:F; [discriminate|]. assert (Et : t = typeFromSlice (a :: r)) by congruence. clear H.
  assert (S : forall u, In u (a :: r) -> In u (typeNames (sType n))) by (intros u Hu; rewrite <- F in Hu; apply filter_In in Hu; tauto).
  assert (NE : ~ In "" (a :: r)).
  { intros X. apply S in X. destruct (sType n) as [[sg mu]|]; cbn in *; [|repeat destruct X as [X|X]; try discriminate X; auto].
    destruct mu; [tauto|]. destruct X as [X|[]]. auto. }
  destruct (fromSlice_names (a :: r)) as [A _]; [discriminate|exact NE|]. rewrite <- Et in A. rewrite A.
  destruct (mem_string "integer" (expandNotTypes (nodeTypes x true)) && negb (hasValueConstraints x)) eqn:G.
  - right. apply andb_prop in G. destruct G as [G _]. apply mem_string_In in G.
    destruct (sType x) as [tx|] eqn:EX; [|unfold nodeTypes in G; rewrite EX in G; destruct G].
    destruct PX as [PX NX].
    assert (EQ : nodeTypes x true = typeNames (sType x)).
    { unfold nodeTypes. rewrite EX. destruct tx as [sg mu]. unfold properType in PX. cbn in PX |- *. destruct mu as [l|].
      - destruct PX as (-> & N0 & _). cbn. destruct l; [congruence|reflexivity].
      - destruct (String.eqb_spec sg ""); [contradiction|reflexivity]. }
    rewrite EQ, EX in G. split; [|discriminate]. unfold expandNotTypes in G.
    destruct (mem_string "number" (typeNames (Some tx)) && negb (mem_string "integer" (typeNames (Some tx)))) eqn:Y.
    + apply andb_prop in Y. destruct Y as [Y _]. apply mem_string_In in Y. exact Y.
    + exfalso. exact (NX G).
  - left. rewrite <- F. apply filter_In. split; auto. rewrite G. reflexivity.
Qed.

(* ------------------------------------------------------------------ the theorem *)
(* what a quiet step leaves, field by field *)
Record left (E : penv) (rec : schemaNode -> schemaNode -> P nstate) (n x m : schemaNode) : Prop := mkLeft {
  lfType : exists t, resolveType n x = Some t /\ sType m = Some t;
  lfLength : boundsInt (sMinLength n) (sMaxLength n) (sMinLength x) (sMaxLength x) = (sMinLength m, sMaxLength m, false);
  lfPattern : sPattern m = sPattern n;
  lfFormat : sFormat m = sFormat n;
  lfMultiple : plainNumber x -> (forall q, sMultipleOf n = Some q -> is_finite q = true /\ B2R q <> 0%R) -> sMultipleOf m = sMultipleOf n;
  lfEnum : forall l, sEnum n = Some l -> l <> [] -> exists l', sEnum m = Some (map reread l') /\
     (forall w, In w l' <-> In w l /\ ~ In (marshal w) (map marshal (get_or (sEnum x) [])));
  lfConst : sConst m = sConst n;
  lfItemCount : boundsInt (sMinItems n) (sMaxItems n) (sMinItems x) (sMaxItems x) = (sMinItems m, sMaxItems m, false);
  lfContainCount : boundsInt (sMinContains n) (sMaxContains n) (sMinContains x) (sMaxContains x) = (sMinContains m, sMaxContains m, false);
  lfItems : exists a b, notItems rec (sItems n) (sItems x) a = Ok (sItems m, b) /\ quiet a b;
  lfUnique : exists a b, resolveBool (sUniqueItems n) (sUniqueItems x) a = Ok (sUniqueItems m, b);
  lfPrefix : exists a b, notPrefix rec (sPrefixItems n) (sPrefixItems x) (sItems m) a = Ok (sPrefixItems m, b) /\ quiet a b;
  lfContains : exists a b, notSubPtr rec "/not/contains" (sContains n) (sContains x) a = Ok (sContains m, b) /\ quiet a b;
  lfPropCount : boundsInt (sMinProperties n) (sMaxProperties n) (sMinProperties x) (sMaxProperties x) = (sMinProperties m, sMaxProperties m, false);
  lfProps : exists props a b, notPropsLoop rec (keys (get_or (sProperties n) []) ++ keys (get_or (sProperties x) []))%list
                   (get_or (sProperties n) []) (get_or (sProperties x) []) [] a = Ok (props, b) /\ quiet a b /\
     get_or (sProperties m) [] = fold_left (fun acc p => mdelete p acc) (refusedNames n x) props;
  lfAdditional : exists a b, notNof rec "/not/additionalProperties" (sAdditionalProperties n) (sAdditionalProperties x) a = Ok (sAdditionalProperties m, b) /\ quiet a b;
  lfPatterns : sPatternProperties m = sPatternProperties n;
  lfRequired : sRequired m = sRequired n;
  lfChoice : sAnyOf m = sAnyOf n /\ sOneOf m = sOneOf n /\ sRef m = sRef n /\ sIf m = sIf n /\ sThen m = sThen n /\ sElse m = sElse n;
  lfConstraints : sConstraints m = sConstraints n }.

Lemma notStep_left : forall E rec n x s m c s', (forall a b, stable E (rec a b)) ->
  notStep E rec n x s = Ok ((m, c), s') -> quiet s s' -> left E rec n x m.
Proof.
  intros E rec n x s m c s' Hrec H Q.
  destruct (notStep_runs E rec Hrec _ _ _ _ _ _ H Q) as (m1 & m2 & m3 & m4 & m5 & m6 & S & ->). clear H Q.
  destruct S as (t & c1 & c2 & c3 & c4 & c5 & s1 & s2 & s3 & s4 & s5 & s6 & ET & (H1 & Q1) & (H2 & Q2) & (H3 & Q3) & (H4 & Q4) & (H5 & Q5) & (H6 & Q6) & _).
  destruct (notString_ok _ _ _ _ _ _ _ _ _ H1) as (l1 & l2 & wl & B1 & R1 & E1). destruct wl; [exfalso; eapply quiet_not; [apply R1; auto|exact Q1]|]. clear R1 H1 Q1.
  assert (N2 : sMultipleOf m1 = None) by (rewrite E1; reflexivity).
  assert (X2 : plainNumber x -> (forall q, sMultipleOf n = Some q -> is_finite q = true /\ B2R q <> 0%R) -> sMultipleOf m2 = sMultipleOf n).
  { intros PN HQ. destruct (num_run _ _ _ _ _ _ _ _ PN N2 HQ H2) as [_ R]. exact R. }
  destruct (notNumber_ok E _ _ _ _ _ _ _ _ H2) as (_ & _ & e & mn & mx & mo & E2 & _). clear H2 Q2.
  destruct (enum_run _ _ _ _ _ _ _ _ H3 Q3) as (X3 & _ & E3). clear H3 Q3.
  destruct (notConst_ok E _ _ _ _ _ _ _ _ H4) as (_ & E4). clear H4 Q4.
  destruct (array_run E rec Hrec _ _ _ _ _ _ _ _ H5 Q5) as (i1 & i2 & k1 & k2 & its & un & prx & une & con & B5 & B6 & I5 & U5 & P5 & C5 & E5). clear H5 Q5.
  assert (N6 : sProperties m5 = None). { rewrite E5. cbn. rewrite E4. cbn. rewrite E3. cbn. rewrite E2. cbn. rewrite E1. reflexivity. }
  destruct (object_run E rec Hrec _ _ _ _ _ _ _ _ H6 Q6 N6) as (p1 & p2 & props & addp & B7 & PR & AD & GP & pr & E6). clear H6 Q6.
  assert (F : sMultipleOf (keepFields n m6) = sMultipleOf m2 /\ sEnum (keepFields n m6) = sEnum m3 /\ get_or (sProperties (keepFields n m6)) [] = get_or (sProperties m6) []).
  { split; [|split]; unfold keepFields; cbn; auto.
    - rewrite E6. cbn. rewrite E5. cbn. rewrite E4. cbn. rewrite E3. cbn. reflexivity.
    - rewrite E6. cbn. rewrite E5. cbn. rewrite E4. cbn. reflexivity. }
  destruct F as (F1 & F2 & F3).
  assert (G : forall A (p : schemaNode -> A), p m6 = p m6) by reflexivity. clear G.
  rewrite GP in F3. clear GP N6 N2.
  assert (E0 : m6 = set_sProperties pr (set_sMinProperties p1 (set_sMaxProperties p2 (set_sPatternProperties (sPatternProperties n)
           (set_sAdditionalProperties addp (set_sRequired (sRequired n) (set_sMinItems i1 (set_sMaxItems i2 (set_sMinContains k1 (set_sMaxContains k2
        (set_sItems its (set_sUniqueItems un (set_sPrefixItems prx (set_sUnevaluatedItems une (set_sContains con
        (set_sConst (sConst n) (set_sEnum (sEnum m3) (set_sEnum e (set_sMinimum mn (set_sMaximum mx (set_sMultipleOf mo
        (set_sMinLength l1 (set_sMaxLength l2 (set_sPattern (sPattern n) (set_sFormat (sFormat n) (set_sType (Some t) emptyNode)))))))))))))))))))))))))).
  { rewrite E6, E5, E4. rewrite E3 at 1. rewrite E2, E1. reflexivity. }
  clear E1 E2 E3 E4 E5 E6. destruct PR as (pa & pb & PR & PQ).
  constructor; rewrite ?F1, ?F2; try unfold keepFields.
  - exists t. rewrite E0. split; [exact ET|reflexivity].
  - rewrite E0. exact B1.
  - rewrite E0. reflexivity.
  - rewrite E0. reflexivity.
  - exact X2.
  - exact X3.
  - rewrite E0. reflexivity.
  - rewrite E0. exact B5.
  - rewrite E0. exact B6.
  - rewrite E0. exact I5.
  - rewrite E0. exact U5.
  - rewrite E0. exact P5.
  - rewrite E0. exact C5.
  - rewrite E0. exact B7.
  - exists props, pa, pb. split; [exact PR|]. split; [exact PQ|exact F3].
  - rewrite E0. exact AD.
  - rewrite E0. reflexivity.
  - rewrite E0. reflexivity.
  - rewrite E0. cbn. auto 10.
  - reflexivity.
Qed.

Section Kept.
Variable E : penv.
Variable matches formatted : string -> string -> Prop.
Variable refers : string -> json -> Prop.
Notation valid := (valid matches formatted refers).

Lemma constraints_valid : forall k m v, valid (set_sConstraints k m) v -> valid m v.
Proof. intros k m v H. apply valid_eq. apply valid_eq in H. exact H. Qed.

Definition refused (n x : schemaNode) (v : json) : Prop :=
  forall k o, v = JObj o -> In k (refusedNames n x) -> In k (keys (get_or (sProperties n) [])) -> assoc k o = None.

Lemma compatible_flat : forall f n x s m c s' v, compatible n x -> notMerge E (S f) n x s = Ok ((m, c), s') -> quiet s s' ->
  okFlat matches formatted m v -> okFlat matches formatted n v.
Proof.
  intros f n x s m c s' v CP H Q V.
  pose proof H as H0. cbn [notMerge] in H0. pose proof (notStep_left _ _ _ _ _ _ _ _ (st_notMerge E f) H0 Q) as L. clear H0.
  destruct V as (VT & VE & VC & VS & VN & VA & VO).
  assert (NR : forall t, ~ reports s s' t) by (intros t R; eapply quiet_not; eauto).
  assert (SZ : forall w, In (Some w) (sizesOf n ++ sizesOf x)%list -> w < 2 ^ 31 - 12) by apply (cpSizes _ _ CP).
  unfold sizesOf in SZ. cbn [app In] in SZ.
  split; [|split; [|split; [|split; [|split; [|split]]]]].
  - destruct (lfType _ _ _ _ _ L) as (t & ET & EM). rewrite EM in VT. exact (type_back n x t v (cpType _ _ CP) ET VT).
  - intros l EN. destruct (cpEnum _ _ CP) as [NE TX].
    destruct (lfEnum _ _ _ _ _ L l EN) as (l' & EM & SP); [congruence|]. destruct (VE _ EM) as (y & I & J).
    apply in_map_iff in I. destruct I as (w & <- & I). apply SP in I. destruct I as [I _]. exists w. split; auto.
    destruct (TX l w EN I) as (j & D). rewrite (reread_text w j D) in J. exact J.
  - intros w EC. apply VC. rewrite (lfConst _ _ _ _ _ L). exact EC.
  - intros str ->. destruct (VS str eq_refl) as (V1 & V2 & V3). split; [|split].
    + eapply boundsInt_ok; [exact (lfLength _ _ _ _ _ L)|lia| |exact V1]. intros w Hw. apply SZ. clear -Hw. tauto.
    + intros p EP. apply V2. rewrite (lfPattern _ _ _ _ _ L). exact EP.
    + intros p EP. apply V3. rewrite (lfFormat _ _ _ _ _ L). exact EP.
  - intros z Hz. destruct (VN z Hz) as [V1 V2]. split.
    + destruct (lfType _ _ _ _ _ L) as (t & ET & EM).
      destruct (in_dec string_dec "integer" (typeNames (sType m))) as [I|NI].
      * rewrite EM in I. pose proof (resolved_proper n x t (cpType _ _ CP) ET) as [_ RS].
        destruct (notMerge_number_int E (S f) n x s m c s' z H (cpType _ _ CP) (cpMultiples _ _ CP)) as [R|[R|R]].
        -- rewrite EM. exact I.
        -- apply (cpIntegers _ _ CP). apply RS. exact I.
        -- elim (NR _ R).
        -- elim (NR _ R).
        -- apply R. exact V1.
      * assert (CN : ~ In "integer" (typeNames (sType n)) \/ In "number" (typeNames (sType x)) /\ sType x <> None).
        { destruct (in_dec string_dec "integer" (typeNames (sType n))) as [I|N]; auto. right.
          destruct (integer_left n x t (cpType _ _ CP) ET I (cpMultiples _ _ CP)) as [A|A]; auto. rewrite EM in NI. contradiction. }
        destruct (cpNumbers _ _ CP CN) as (X1 & X2 & X3).
        destruct (notMerge_number_real E (S f) n x s m c s' z H (cpType _ _ CP) (cpMultiples _ _ CP) NI X1 X2 X3) as [R|[R|R]].
        -- elim (NR _ R).
        -- elim (NR _ R).
        -- apply R. exact V1.
    + unfold okMultipleOf in *. rewrite (lfMultiple _ _ _ _ _ L (cpMultiples _ _ CP) (cpMultipleOf _ _ CP)) in V2. exact V2.
  - intros l ->. destruct (VA l eq_refl) as (V1 & V2). split.
    + eapply boundsInt_ok; [exact (lfItemCount _ _ _ _ _ L)|lia| |exact V1]. intros w Hw. apply SZ. clear -Hw. tauto.
    + intros U. apply V2. destruct (lfUnique _ _ _ _ _ L) as (a & b & R). unfold resolveBool in R. rewrite U in R.
      destruct (sUniqueItems x) as [y|].
      * destruct (Bool.eqb true y); [discriminate R|]. apply pret_ok in R. destruct R as [-> _]. reflexivity.
      * apply pret_ok in R. destruct R as [-> _]. reflexivity.
  - intros o ->. destruct (VO o eq_refl) as (V1 & V2). split.
    + eapply boundsInt_ok; [exact (lfPropCount _ _ _ _ _ L)|lia| |exact V1]. intros w Hw. apply SZ. clear -Hw. tauto.
    + intros l k R I. eapply V2; [|exact I]. rewrite (lfRequired _ _ _ _ _ L). exact R.
Qed.

Lemma kept : forall d f n x s m c s' v, keepsKeywords d n x -> notMerge E f n x s = Ok ((m, c), s') -> quiet s s' ->
  refused n x v -> valid m v -> valid n v.
Proof.
  induction d as [|d IH]; intros f n x s m c s' v K H Q RF V; [destruct K|].
  destruct f as [|f]; [discriminate|]. destruct K as [CP KS].
  apply valid_eq in V. apply valid_eq. destruct V as (VF & VO & VA & _ & V1 & V2 & _ & V3 & V4).
  pose proof H as H0. cbn [notMerge] in H0. pose proof (notStep_left _ _ _ _ _ _ _ _ (st_notMerge E f) H0 Q) as L. clear H0.
  assert (SUB : forall a b sc s1 q s2 w, meets n x a b -> notSub (notMerge E f) sc a b s1 = Ok (q, s2) -> quiet s1 s2 -> valid q w -> valid a w).
  { intros a b sc s1 q s2 w M R Qs VQ. destruct (KS a b M) as [K' RF'].
    destruct (notSub_run _ _ _ _ _ _ _ R Qs) as (m0 & c0 & k & t1 & t2 & R1 & R2 & -> & _).
    eapply IH; [exact K'|exact R1|exact R2| |eapply constraints_valid; exact VQ].
    intros k' o _ I1 I2. elim (RF' k' I1 I2). }
  split; [exact (compatible_flat _ _ _ _ _ _ _ _ CP H Q VF)|].
  split; [|split; [|split; [rewrite (cpAllOf _ _ CP); exact Logic.I|]]].
  - intros o Ho. destruct (VO o Ho) as (O1 & O2 & O3). clear VO VA.
    destruct (lfProps _ _ _ _ _ L) as (props & pa & pb & PR & PQ & GP).
    destruct (props_run E _ (st_notMerge E f) _ _ _ _ _ _ _ PR PQ) as (PK & _ & PA).
    assert (MP : forall k, assoc k (get_or (sProperties m) []) = if mem_string k (refusedNames n x) then None else assoc k props).
    { intros k. rewrite GP. apply mdeletes_assoc. }
    split; [|split].
    + destruct (sProperties n) as [np|] eqn:EP; [|exact Logic.I]. cbn [present get_or] in *. apply (proj2 (everyMember_In matches formatted refers _ _ _)). intros k p I y A.
      assert (AN : assoc k np = Some p). { apply In_assoc; auto. pose proof (cpProperties _ _ CP) as ND. rewrite EP in ND. exact ND. }
      assert (IK : In k (keys np)) by (unfold keys; apply in_map_iff; exists (k, p); auto).
      destruct (mem_string k (refusedNames n x)) eqn:MM.
      * exfalso. apply mem_string_In in MM. assert (X : assoc k o = None) by (apply (RF k o); auto; rewrite EP; exact IK). congruence.
      * destruct (PA k p) as (q & AQ & RQ); [apply in_or_app; auto|exact AN|].
        specialize (MP k). rewrite MM, AQ in MP.
        assert (VQ : valid q y).
        { destruct (sProperties m) as [mp|]; [|discriminate MP]. cbn [present get_or] in O1, MP. rewrite (everyMember_In matches formatted refers) in O1. eapply O1; [apply Base.assoc_In; exact MP|exact A]. }
        destruct (assoc k (get_or (sProperties x) [])) as [b|] eqn:AX; [|subst q; exact VQ].
        destruct RQ as (sc & a1 & a2 & R1 & R2). eapply (SUB p b); [|exact R1|exact R2|exact VQ].
        apply meetProperty with (k := k); [rewrite EP; exact AN|exact AX].
    + rewrite (lfPatterns _ _ _ _ _ L) in O2. exact O2.
    + destruct (sAdditionalProperties n) as [ad|] eqn:EA; [|exact Logic.I]. cbn [present]. intros k y A NK NP.
      destruct (lfAdditional _ _ _ _ _ L) as (aa & ab & RA & QA). rewrite EA in RA.
      assert (NK' : ~ In k (keys (get_or (sProperties m) []))).
      { intros I. assert (AS : assoc k (get_or (sProperties m) []) <> None) by (intros X; apply (proj1 (Base.assoc_None _ _ _)) in X; contradiction).
        specialize (MP k). rewrite MP in AS. destruct (mem_string k (refusedNames n x)); [congruence|].
        assert (IP : In k (keys props)). { destruct (assoc k props) as [q|] eqn:AQ; [|congruence]. apply Base.assoc_In in AQ. unfold keys. apply in_map_iff. exists (k, q). auto. }
        apply PK in IP. destruct IP as [IP|[]]. apply in_app_or in IP. destruct IP as [IP|IP]; [contradiction|].
        apply NK. apply (cpAdditional _ _ CP); [rewrite EA; discriminate|exact IP]. }
      rewrite <- (lfPatterns _ _ _ _ _ L) in NP.
      unfold notNof in RA. cbn [get_or] in RA. destruct (nofFalse ad) eqn:FA.
      * apply pbind_ok in RA. destruct RA as (u & a1 & _ & RA). apply pret_ok in RA. destruct RA as [RA _].
        rewrite RA in O3. cbn [present] in O3. destruct (O3 k y A NK' NP) as [B _]. congruence.
      * apply (quiet_bind E) in RA; [|apply st_notSub, st_notMerge|intros; apply st_ret|exact QA].
        destruct RA as (q & a1 & R1 & RA & R2 & _). apply pret_ok in RA. destruct RA as [RA _].
        rewrite RA in O3. cbn [present] in O3. destruct (O3 k y A NK' NP) as [_ B]. cbn in B. split; [reflexivity|].
        destruct (nofSchema ad) as [p|] eqn:EP; [|exact Logic.I]. cbn [present get_or] in *.
        eapply (SUB p); [|exact R1|exact R2|exact B].
        pose proof (meetAdditional n x ad p EA FA EP) as MA.
        destruct (sAdditionalProperties x); exact MA.
  - intros l Hl. destruct (VA l Hl) as (A1 & A2 & _ & A4). clear VO VA.
    destruct (lfPrefix _ _ _ _ _ L) as (pa & pb & PR & PQ).
    assert (PP : match sPrefixItems n, sPrefixItems x with
                 | None, None => sPrefixItems m = None
                 | np, xp => exists r, sPrefixItems m = Some r /\ List.length r = Nat.max (List.length (get_or np [])) (List.length (get_or xp [])) /\
                     forall j p, nth_error (get_or np []) j = Some p -> exists q sc a a', nth_error r j = Some q /\
                       notSub (notMerge E f) sc p (nth j (get_or xp []) emptyNode) a = Ok (q, a') /\ quiet a a'
                 end).
    { unfold notPrefix in PR. destruct (sPrefixItems n) as [np|], (sPrefixItems x) as [xp|]; cbn [get_or] in *;
      [| | |apply pret_ok in PR; tauto];
      (apply (quiet_bind E) in PR; [|apply st_notPrefixLoop, st_notMerge|intros; apply st_ret|exact PQ];
       destruct PR as (r & a1 & R1 & PR & R2 & _); apply pret_ok in PR; destruct PR as [PR _]; exists r; split; [exact PR|];
       destruct (prefix_run E _ (st_notMerge E f) _ _ _ _ _ _ _ R1 R2) as [X1 X2]; split; [exact X1|exact X2]). }
    assert (POS : forall i p y, nth_error (get_or (sPrefixItems n) []) i = Some p -> nth_error l i = Some y -> valid p y).
    { intros i p y NP NY.
      assert (PP' : exists q sc a a', nth_error (get_or (sPrefixItems m) []) i = Some q /\
          notSub (notMerge E f) sc p (nth i (get_or (sPrefixItems x) []) emptyNode) a = Ok (q, a') /\ quiet a a').
      { destruct (sPrefixItems n) as [np|]; [|destruct i; discriminate NP].
        destruct (sPrefixItems x) as [xp|]; cbn [get_or] in *; destruct PP as (r & -> & _ & PP); cbn [get_or]; apply PP; exact NP. }
      destruct PP' as (q & sc & a & a' & NQ & R1 & R2). eapply (SUB p); [|exact R1|exact R2|].
      - apply meetPosition. exact NP.
      - destruct (sPrefixItems m) as [r|]; [|destruct i; discriminate NQ]. cbn [present get_or] in *. rewrite positions_nth in A1. eapply A1; eauto. }
    split; [|split; [|split]].
    + destruct (sPrefixItems n) as [np|]; [|exact Logic.I]. cbn [present get_or] in *. apply (proj2 (positions_nth _ _ _ _)). exact POS.
    + destruct (sItems n) as [it|] eqn:EI; [|exact Logic.I]. cbn [present].
      destruct (cpItems _ _ CP) as [_ IN]. specialize (IN it EI). rewrite IN.
      assert (LEN : List.length (get_or (sPrefixItems m) []) = List.length (get_or (sPrefixItems n) [])).
      { pose proof (cpPositions _ _ CP) as LE. rewrite EI in LE. specialize (LE ltac:(discriminate)).
        destruct (sPrefixItems n) as [np|], (sPrefixItems x) as [xp|]; cbn [get_or] in *; try (rewrite PP; reflexivity);
        destruct PP as (r & -> & X & _); cbn [get_or]; rewrite X; cbn [List.length] in *; lia. }
      assert (TL : tupleLength (sPrefixItems n) (Some it) = List.length (get_or (sPrefixItems n) [])).
      { unfold tupleLength. rewrite IN. destruct (sPrefixItems n); reflexivity. }
      destruct (lfItems _ _ _ _ _ L) as (ia & ib & RI & QI). rewrite EI in RI.
      assert (TM : forall it', sItems m = Some it' -> itNodes it' = None -> tupleLength (sPrefixItems m) (sItems m) = List.length (get_or (sPrefixItems n) [])).
      { intros it' E1 E2. rewrite <- LEN. unfold tupleLength. rewrite E1, E2. destruct (sPrefixItems m); reflexivity. }
      rewrite TL. split; [intros _; exact Logic.I|].
      assert (SAME : sItems m = Some it -> (itDisallow it = true -> skipn (List.length (get_or (sPrefixItems n) [])) l = []) /\
                present (fun c0 => forall y, In y (skipn (List.length (get_or (sPrefixItems n) [])) l) -> valid c0 y) (itNode it)).
      { intros EM. rewrite <- (TM it EM IN). rewrite EM in A2. cbn [present] in A2. rewrite <- EM in A2. tauto. }
      unfold notItems in RI. destruct (sItems x) as [jt|] eqn:EX; [|apply pret_ok in RI; destruct RI as [RI _]; exact (SAME RI)].
      cbn [get_or] in RI. destruct (itDisallow it) eqn:DI; cbn [andb] in RI.
      * destruct (itDisallow jt).
        -- apply pbind_ok in RI. destruct RI as (u & a1 & R & RI). apply pret_ok in RI. destruct RI as [_ ->]. exfalso. eapply quiet_warn; eauto.
        -- apply pret_ok in RI. destruct RI as [RI _]. exact (SAME RI).
      * clear SAME. split; [discriminate|]. destruct (itNode it) as [p|] eqn:EP; [|exact Logic.I]. cbn [present]. intros y I.
        apply (quiet_bind E) in RI; [|apply st_warnIf| |exact QI].
        2:{ intros. destruct (itNode jt); (apply st_bind; [apply st_notSub, st_notMerge|intros; apply st_ret]). }
        destruct RI as (u & a1 & _ & RI & _ & Q1).
        assert (RI' : (let* m0 := notSub (notMerge E f) "/not/items" p (get_or (itNode jt) emptyNode) in pret (Some (mkItems (Some m0) None false))) a1 = Ok (sItems m, ib)).
        { destruct (itNode jt); exact RI. }
        apply (quiet_bind E) in RI'; [|apply st_notSub, st_notMerge|intros; apply st_ret|exact Q1].
        destruct RI' as (q & a2 & R1 & RI' & R2 & _). apply pret_ok in RI'. destruct RI' as [EM _].
        eapply (SUB p); [|exact R1|exact R2|].
        -- exact (meetItems n x it jt p EI EX EP).
        -- rewrite (TM _ EM eq_refl) in A2. rewrite EM in A2. cbn in A2. destruct A2 as (_ & _ & A2). apply A2. exact I.
    + destruct (cpItems _ _ CP) as [-> _]. exact Logic.I.
    + destruct (sContains n) as [p|] eqn:EC; [|exact Logic.I]. cbn [present].
      destruct (cpContains _ _ CP) as (X1 & X2 & X3). rewrite X3.
      pose proof (lfContainCount _ _ _ _ _ L) as BC. rewrite X1, X2 in BC. cbn in BC. injection BC as B1 _.
      destruct (lfContains _ _ _ _ _ L) as (ca & cb & RC & QC). unfold notSubPtr in RC. rewrite EC in RC.
      assert (RC' : (let* m0 := notSub (notMerge E f) "/not/contains" p (get_or (sContains x) emptyNode) in pret (Some m0)) ca = Ok (sContains m, cb)).
      { destruct (sContains x); exact RC. }
      apply (quiet_bind E) in RC'; [|apply st_notSub, st_notMerge|intros; apply st_ret|exact QC].
      destruct RC' as (q & a2 & R1 & RC' & R2 & _). apply pret_ok in RC'. destruct RC' as [EM _]. rewrite EM in A4. cbn [present] in A4.
      destruct A4 as [A4 _]. rewrite <- B1 in A4. split; [|discriminate].
      assert (IMP : forall y, valid q y -> valid p y) by (intros y; eapply SUB; [exact (meetContains n x p EC)|exact R1|exact R2]).
      revert IMP A4. clear. generalize (get_or (sMinContains n) 1). intros z IMP A. induction A; [apply al_done; auto|apply al_take; auto|apply al_skip; auto].
  - destruct (lfChoice _ _ _ _ _ L) as (C1 & C2 & C3 & C4 & C5 & C6). rewrite (cpNot _ _ CP).
    rewrite C1 in V1. rewrite C2 in V2. rewrite C3 in V4. rewrite C4, C5, C6 in V3. split; [exact V1|]. split; [exact V2|]. split; [exact Logic.I|]. split; [exact V3|exact V4].
Qed.
End Kept.
