(* Proofs behind P_Values.v: the values generated for accepted schema nodes. *)
From Coq Require Import ZArith List String Ascii Bool Lia.
From Verif Require Import Base Float64 Json Schema Util Rand Options Number Gen GenFacts GenInv GenValues.
From Verif Require Import PState RefPath Merge NotMerge Parse PFacts ParseKeep SpecSchema SpecRun ParseShape.
Import ListNotations.
Open Scope string_scope.
Open Scope Z_scope.

Lemma yields_step : forall GE g st v st', yields GE g st v st' ->
  exists f, genStep GE (generate GE f) g st = Ok (v, st').
Proof. intros GE g st v st' (fuel & H). destruct fuel as [|f]; [discriminate|]. exists f. exact H. Qed.
Lemma fwd_generate : forall GE f g, fwd (generate GE f g).
Proof. intros GE f g s v s' H. eapply generate_after; eauto. Qed.
Lemma prod_made : forall GE f g v s s', prod (generate GE f) g v s s' -> madeBy GE g v s s'.
Proof. intros GE f g v s s' (a & b & H & A & B). exists a, b. split; auto. exists f. exact H. Qed.
Lemma yields_after : forall GE g st v st', yields GE g st v st' -> after st st'.
Proof. intros GE g st v st' (f & H). eapply generate_after; eauto. Qed.
Lemma yields_made : forall GE g st v st', yields GE g st v st' -> madeBy GE g v st st'.
Proof. intros. exists st, st'. split; auto. split; apply after_refl. Qed.

Lemma Forall2_In_l : forall A B (R : A -> B -> Prop) l l' a, Forall2 R l l' -> In a l -> exists b, In b l' /\ R a b.
Proof. intros A B R l l' a F. induction F; simpl; intros []; subst; eauto. destruct (IHF H0) as (z & ? & ?); eauto. Qed.
Lemma Forall2_In_r : forall A B (R : A -> B -> Prop) l l' b, Forall2 R l l' -> In b l' -> exists a, In a l /\ R a b.
Proof. intros A B R l l' b F. induction F; simpl; intros []; subst; eauto. destruct (IHF H0) as (z & ? & ?); eauto. Qed.
Lemma Forall2_comp : forall A B C (R : A -> B -> Prop) (S : B -> C -> Prop) l m r,
  Forall2 R l m -> Forall2 S m r -> Forall2 (fun a c => exists b, R a b /\ S b c) l r.
Proof. intros A B C R S l m r F. revert r. induction F; intros r G; inversion G; subst; constructor; eauto. Qed.

(* ------------------------------------------------------------------ strings *)
Lemma chars_ascii : forall s, isAscii s -> chars s = Z.of_nat (String.length s).
Proof.
  unfold isAscii. induction s as [|c r IH]; intros H; auto. cbn [chars String.length].
  rewrite IH; [|intros x Hx; apply H; simpl; auto].
  assert (C : (nat_of_ascii c < 128)%nat) by (apply H; simpl; auto).
  destruct (Nat.leb_spec 128 (nat_of_ascii c)); [lia|]. cbn [andb]. lia.
Qed.
Lemma list_ascii_app : forall a b, list_ascii_of_string (a ++ b) = (list_ascii_of_string a ++ list_ascii_of_string b)%list.
Proof. induction a; simpl; intros; auto. now rewrite IHa. Qed.
Lemma isAscii_app : forall a b, isAscii a -> isAscii b -> isAscii (a ++ b).
Proof. unfold isAscii; intros a b A B c Hc. rewrite list_ascii_app in Hc. apply in_app_or in Hc. destruct Hc; auto. Qed.
Lemma isAscii_substring : forall s n, isAscii s -> isAscii (substring 0 n s).
Proof.
  unfold isAscii. induction s as [|c r IH]; intros n H x Hx.
  - destruct n; simpl in Hx; tauto.
  - destruct n; simpl in Hx; [tauto|]. destruct Hx as [<-|Hx]; [apply H; simpl; auto|].
    eapply IH; eauto. intros y Hy; apply H; simpl; auto.
Qed.

Lemma fillString_ascii : forall GE, (forall d, isAscii (eSentence GE d)) ->
  forall n mn acc s v s', isAscii acc -> fillString GE n mn acc s = Ok (v, s') -> isAscii v.
Proof.
  intros GE HS. induction n; intros mn acc s v s' HA H; simpl in H; [discriminate|].
  destruct (Z.of_nat (String.length acc) <? mn).
  - stepM H. eapply IHn; [|exact H]. apply isAscii_app; auto.
  - apply ret_ok in H. destruct H as [-> _]. auto.
Qed.
Lemma genString_ascii : forall GE, (forall d, isAscii (eSentence GE d)) ->
  forall mn mx s str s', genString GE "" "" mn mx s = Ok (JStr str, s') -> isAscii str.
Proof.
  intros GE HS mn mx s str s' H. unfold genString in H. cbn [String.eqb negb] in H.
  stepM H. stepM H. stepM H. apply ret_ok in H. destruct H as [H _].
  match goal with F : fillString _ _ _ _ _ = _ |- _ => apply fillString_ascii in F; auto end.
  injection H as ->.
  match goal with |- isAscii (if ?b then _ else _) => destruct b end; auto. now apply isAscii_substring.
Qed.

Lemma string_lengths : forall PE GE n g st v st', plain n -> ofType "string" n -> sPattern n = None -> sFormat n = None ->
  sMaxLength n <> Some 0 -> accepted PE n g -> yields GE g st v st' ->
  exists str, v = JStr str /\ okRange (sMinLength n) (sMaxLength n) (Z.of_nat (String.length str)) /\
    ((forall d, isAscii (eSentence GE d)) -> okRange (sMinLength n) (sMaxLength n) (chars str)).
Proof.
  intros PE GE n g st v st' HP HT Hp Hf Hm HA HY.
  apply (accepted_typed PE n g "string") in HA; auto; [|discriminate]. destruct HA as (f & s & s' & H).
  cbn in H. change (parseString PE n s = Ok (Good g, s')) in H. apply parseString_shape in H.
  destruct H as (-> & H1 & H2 & H3 & _). rewrite Hp, Hf in HY. cbn [get_or] in HY.
  apply yields_step in HY. destruct HY as (k & H). cbn [genStep] in H. pose proof H as H0.
  apply genString_ok in H; auto.
  destruct H as (str & -> & L1 & L2). exists str. split; auto.
  assert (R : okRange (sMinLength n) (sMaxLength n) (Z.of_nat (String.length str))).
  { split; intros b Hb; rewrite Hb in *; cbn [get_or] in *; [lia|]. apply L2. congruence. }
  split; auto. intros HS. rewrite chars_ascii; auto. eapply genString_ascii; eauto.
Qed.

(* every call returns a value if sentences are not empty *)
Lemma string_returns : forall GE f mn mx st, (forall d, eSentence GE d <> "") ->
  exists v st', generate GE (S f) (GString "" "" mn mx) st = Ok (v, st').
Proof.
  intros GE f mn mx st HS. cbn [generate genStep].
  assert (ST : GenFacts.stable (fun _ : gst => True)) by (constructor; auto).
  cut (inv False False (fun _ => True) (genString GE "" "" mn mx)).
  { intros I. specialize (I st Logic.I). destruct (genString GE "" "" mn mx st) as [[v s]| |]; try tauto. eauto. }
  unfold genString. cbn [String.eqb negb].
  apply inv_bind; [apply inv_tick; auto|intros _]. apply inv_bind; [apply inv_globDraw; auto|intros d].
  apply inv_bind; [|intros; apply inv_ret].
  apply inv_fillString; auto. right. split; auto. lia.
Qed.
Lemma string_generates : forall PE GE n g st, plain n -> ofType "string" n -> sPattern n = None -> sFormat n = None ->
  accepted PE n g -> (forall d, eSentence GE d <> "") -> exists v st', yields GE g st v st'.
Proof.
  intros PE GE n g st HP HT Hp Hf HA HS.
  apply (accepted_typed PE n g "string") in HA; auto; [|discriminate]. destruct HA as (f & s & s' & H).
  cbn in H. change (parseString PE n s = Ok (Good g, s')) in H. apply parseString_shape in H.
  destruct H as (-> & _). rewrite Hp, Hf. cbn [get_or].
  destruct (string_returns GE O (get_or (sMinLength n) 0) (get_or (sMaxLength n) 0) st HS) as (v & st' & H).
  exists v, st', 1%nat. exact H.
Qed.

(* ------------------------------------------------------------------ arrays *)
Lemma array_shape : forall PE n g, plain n -> ofType "array" n -> accepted PE n g ->
  exists f s s', parseArray PE (parseF PE f false) (merge PE f) n s = Ok (Good g, s').
Proof.
  intros PE n g HP HT HA. apply (accepted_typed PE n g "array") in HA; auto. discriminate.
Qed.

Lemma small_in : forall n k, smallSizes n -> In (Some k) [sMinLength n; sMaxLength n; sMinItems n; sMaxItems n; sMinContains n; sMaxContains n;
                         sMinProperties n; sMaxProperties n] -> 0 <= k < 2 ^ 60.
Proof. intros n k [H _]. apply H. Qed.
Lemma small_get : forall n o, smallSizes n -> In o [sMinLength n; sMaxLength n; sMinItems n; sMaxItems n; sMinContains n; sMaxContains n;
                         sMinProperties n; sMaxProperties n] -> 0 <= get_or o 0 < 2 ^ 60.
Proof. intros n o [H _] HI. destruct o as [k|]; cbn [get_or]; [apply H; auto|lia]. Qed.

Lemma getInt_cases : forall a b, getInt a b = a /\ a <> 0 \/ getInt a b = b /\ a = 0.
Proof. intros. unfold getInt. destruct (Z.eqb_spec a 0); auto. Qed.

Lemma appended_made : forall GE f u g s0 s1 data r, appended GE (generate GE f) u g s0 s1 data r ->
  forall x, In x r -> madeBy GE g x s0 s1 \/ (u = true /\ x = JStr (uniqueWarning GE) /\ emitted EvUniqueFail s0 s1).
Proof.
  intros GE f u g s0 s1 data r H. induction H; intros x Hx; simpl in Hx; try tauto.
  - destruct Hx as [<-|Hx]; auto. left. eapply prod_made; eauto.
  - destruct Hx as [<-|Hx]; auto.
Qed.

(* everything known of a generated array *)
Lemma array_facts : forall PE GE n g st v st', plain n -> ofType "array" n -> smallSizes n -> smallOptions (eOpts GE) ->
  accepted PE n g -> yields GE g st v st' ->
  cutShort GE st v \/
  exists f tu it ad ct un tv cv rv,
    let o := eOpts GE in
    let minc := minContainsOf n in let tl := prefixLength n in
    let mni := get_or (sMinItems n) 0 in let mxi := get_or (sMaxItems n) 0 in
    let only := itemsFalse n || addlItemsFalse n in
    let mn := getInt (if only then tl else getInt mni minc) (oDefaultArrayMinItems o) in
    let mx0 := getInt (if only then tl else getInt mxi (getInt mni minc + defaultOffset)) (oDefaultArrayMaxItems o) in
    let mx := if mx0 <? mn then mn + oDefaultArrayMaxItems o else mx0 in
    let uq := get_or (sUniqueItems n) false in
    v = JArr (tv ++ cv ++ rv)%list /\
    Forall2 (accepted PE) (tupleNodes n) tu /\ Forall2 (fun g x => madeBy GE g x st st') tu tv /\
    ofOption PE (itemsNode n) it /\ ofOption PE (addlItemsNode n) ad /\ ofOption PE (unevalNode n) un /\
    match sContains n with Some c => exists c' gc, ct = Some gc /\ containsFrom PE c n c' /\ accepted PE c' gc | None => ct = None end /\
    badBounds mni mxi = false /\ badBounds minc mni = false /\ badBounds (tl + minc) mxi = false /\
    (forall m, sMaxItems n = Some m -> tl <= m) /\
    (if itemsFalse n then cv = [] /\ rv = [] else
       match ct with Some gc => appended GE (generate GE f) uq gc st st' tv cv | None => cv = [] end /\
       Z.of_nat (List.length cv) = (match sContains n with Some _ => minc | None => 0 end) /\
       appended GE (generate GE f) uq (fillGen it ad un uq) st st' (tv ++ cv)%list rv /\
       mn <= Z.of_nat (List.length (tv ++ cv ++ rv)) /\
       Z.of_nat (List.length rv) <= Z.max 0 (Z.max (mx - (Z.of_nat (List.length tv) + minc)) (mn - (Z.of_nat (List.length tv) + Z.of_nat (List.length cv)))) /\
       (unevalFalse n = true -> Z.of_nat (List.length rv) <= Z.max 0 (mn - (Z.of_nat (List.length tv) + Z.of_nat (List.length cv))))).
Proof.
  intros PE GE n g st v st' HP HT HS HO HA HY.
  apply array_shape in HA; auto. destruct HA as (f & s & s' & H).
  apply parseArray_shape in H. cbv zeta in H.
  destruct H as (tu & it & ad & ct & un & -> & F1 & F2 & F3 & F4 & F5 & B1 & B2 & B3 & B4 & B5).
  apply yields_step in HY. destruct HY as (k & H). cbn [genStep] in H.
  assert (Hminc : 0 <= minContainsOf n < 2 ^ 60).
  { unfold minContainsOf. pose proof (small_get n (sMinContains n) HS ltac:(simpl; tauto)).
    destruct ((get_or (sMinContains n) 0 =? 0) && is_some (sContains n)); lia. }
  pose proof (small_get n (sMinItems n) HS ltac:(simpl; tauto)) as Hmni.
  pose proof (small_get n (sMaxItems n) HS ltac:(simpl; tauto)) as Hmxi.
  assert (O1 : 0 <= oDefaultArrayMinItems (eOpts GE) < 2 ^ 60) by (apply HO; simpl; tauto).
  assert (O2 : 0 <= oDefaultArrayMaxItems (eOpts GE) < 2 ^ 60) by (apply HO; simpl; tauto).
  assert (Hct : arrContains ct (mkArr (unevalFalse n) (get_or (sUniqueItems n) false) (minContainsOf n)
     (if itemsFalse n || addlItemsFalse n then prefixLength n else getInt (get_or (sMinItems n) 0) (minContainsOf n))
     (if itemsFalse n || addlItemsFalse n then prefixLength n else getInt (get_or (sMaxItems n) 0) (getInt (get_or (sMinItems n) 0) (minContainsOf n) + defaultOffset))
     (itemsFalse n)) = match sContains n with Some _ => minContainsOf n | None => 0 end).
  { unfold arrContains. cbn [aMinContains]. destruct (sContains n) as [c|] eqn:EC.
    - destruct F5 as (c' & gc & -> & _). unfold minContainsOf in *. rewrite EC in *. cbn [is_some] in *. rewrite andb_true_r in *.
      unfold getInt. destruct (Z.eqb_spec (get_or (sMinContains n) 0) 0); auto. destruct (Z.eqb_spec (get_or (sMinContains n) 0) 0); auto. congruence.
    - subst ct. reflexivity. }
  assert (Hpre : 0 <= prefixLength n < 2 ^ 60) by (destruct HS as (_ & HS & _); unfold prefixLength; lia).
  set (cf := mkArr _ _ _ _ _ _) in *.
  assert (HX : arrMax GE cf < 2 ^ 63).
  { assert (D : defaultOffset = 10) by reflexivity.
    assert (K1 : 0 <= aMinItems cf < 2 ^ 60).
    { unfold cf. cbn [aMinItems]. destruct (itemsFalse n || addlItemsFalse n); [lia|].
      destruct (getInt_cases (get_or (sMinItems n) 0) (minContainsOf n)) as [[-> _]|[-> _]]; lia. }
    assert (K2 : 0 <= aMaxItems cf < 2 ^ 61).
    { unfold cf. cbn [aMaxItems]. destruct (itemsFalse n || addlItemsFalse n); [lia|].
      match goal with |- context [getInt ?a ?b] => destruct (getInt_cases a b) as [[-> _]|[-> _]] end; [lia|].
      destruct (getInt_cases (get_or (sMinItems n) 0) (minContainsOf n)) as [[-> _]|[-> _]]; lia. }
    unfold arrMax, arrMin.
    destruct (getInt_cases (aMinItems cf) (oDefaultArrayMinItems (eOpts GE))) as [[-> _]|[-> _]];
    destruct (getInt_cases (aMaxItems cf) (oDefaultArrayMaxItems (eOpts GE))) as [[-> _]|[-> _]];
    match goal with |- (if ?b then _ else _) < _ => destruct b end; lia. }
  eapply genArray_ok in H; [|apply fwd_generate|rewrite Hct; destruct (sContains n); lia|exact (proj1 Hminc)|exact HX].
  destruct H as [(-> & _ & H)|(tv & cv & rv & s1 & s2 & -> & _ & _ & _ & T & H)]; [left; split; auto|right].
  exists k, tu, it, ad, ct, un, tv, cv, rv. cbv zeta. split; auto. split; auto.
  split. { clear - T. induction T; constructor; auto. eapply prod_made; eauto. }
  split; auto. split; auto. split; auto. split; auto. split; auto. split; auto. split; auto. split; auto.
  change (aDisallowAdditional cf) with (itemsFalse n) in H. destruct (itemsFalse n); auto.
  rewrite Hct in H. assert (LT : List.length tu = List.length tv) by (eapply Forall2_len; eauto).
  rewrite LT in H. destruct H as (P1 & P2 & P3). rewrite <- P2 in P3. exact (conj P1 (conj P2 P3)).
Qed.

(* minItems and maxItems, when nothing else interferes *)
Lemma array_sizes : forall PE GE n g st v st', plain n -> ofType "array" n -> smallSizes n -> smallOptions (eOpts GE) ->
  sMaxItems n <> Some 0 ->
  (forall d, sItems n = Some d -> get_or (itNodes d) [] = []) ->
  addlItemsFalse n = false ->
  (itemsFalse n = true -> get_or (sMinItems n) 0 <= prefixLength n) ->
  (forall m, sMaxItems n = Some m -> oDefaultArrayMinItems (eOpts GE) <= m) ->
  accepted PE n g -> yields GE g st v st' ->
  cutShort GE st v \/ exists l, v = JArr l /\ okRange (sMinItems n) (sMaxItems n) (Z.of_nat (List.length l)).
Proof.
  intros PE GE n g st v st' HP HT HS HO M0 HI HAd HF HD HA HY.
  destruct (array_facts PE GE n g st v st' HP HT HS HO HA HY) as [C|F]; [left; auto|right].
  destruct F as (f & tu & it & ad & ct & un & tv & cv & rv & F). cbv zeta in F.
  destruct F as (-> & T & V & _ & _ & _ & CT & B1 & B3 & B4 & B5 & F).
  exists (tv ++ cv ++ rv)%list. split; auto.
  pose proof (small_get n (sMinItems n) HS ltac:(simpl; tauto)) as Hmni.
  pose proof (small_get n (sMaxItems n) HS ltac:(simpl; tauto)) as Hmxi.
  assert (Hminc : 0 <= minContainsOf n < 2 ^ 60).
  { unfold minContainsOf. pose proof (small_get n (sMinContains n) HS ltac:(simpl; tauto)).
    destruct ((get_or (sMinContains n) 0 =? 0) && is_some (sContains n)); lia. }
  assert (O1 : 0 <= oDefaultArrayMinItems (eOpts GE) < 2 ^ 60) by (apply HO; simpl; tauto).
  assert (O2 : 0 <= oDefaultArrayMaxItems (eOpts GE) < 2 ^ 60) by (apply HO; simpl; tauto).
  assert (LT : Z.of_nat (List.length tv) = prefixLength n).
  { apply Forall2_len in T, V. rewrite <- V, <- T. unfold prefixLength, tupleNodes. destruct (sPrefixItems n) as [[|? ?]|]; auto;
    destruct (sItems n) as [d|]; auto; now rewrite (HI d eq_refl). }
  rewrite HAd, orb_false_r in F. rewrite !app_length, !Nat2Z.inj_add in *. rewrite LT in *.
  apply badBounds_false in B1, B3, B4.
  unfold okRange. destruct (itemsFalse n).
  - destruct F as [-> ->]. cbn [List.length]. split; intros b Hb.
    + specialize (HF eq_refl). rewrite Hb in HF. cbn [get_or] in HF. lia.
    + specialize (B5 b Hb). lia.
  - destruct F as (_ & LC & _ & L1 & L2 & _). rewrite LC in *.
    assert (Hcv : 0 <= match sContains n with Some _ => minContainsOf n | None => 0 end <= minContainsOf n) by (destruct (sContains n); lia).
    set (cvl := match sContains n with Some _ => minContainsOf n | None => 0 end) in *. clearbody cvl.
    set (mn := getInt (getInt (get_or (sMinItems n) 0) (minContainsOf n)) (oDefaultArrayMinItems (eOpts GE))) in *.
    assert (Hmn : get_or (sMinItems n) 0 <= mn).
    { unfold mn. destruct (getInt_cases (get_or (sMinItems n) 0) (minContainsOf n)) as [[-> E]|[-> E]].
      - unfold getInt. destruct (Z.eqb_spec (get_or (sMinItems n) 0) 0); [contradiction|lia].
      - unfold getInt. destruct (minContainsOf n =? 0); lia. }
    split; intros b Hb.
    + rewrite Hb in Hmn. cbn [get_or] in Hmn. lia.
    + rewrite Hb in *. cbn [get_or] in *. assert (b <> 0) by congruence.
      specialize (HD b eq_refl). specialize (B5 b eq_refl).
      assert (Q1 : get_or (sMinItems n) 0 <= b) by lia.
      assert (Q2 : prefixLength n + minContainsOf n <= b) by lia.
      assert (Hmx : mn <= b).
      { unfold mn. destruct (getInt_cases (get_or (sMinItems n) 0) (minContainsOf n)) as [[-> E]|[-> E]];
        unfold getInt; match goal with |- context [?a =? 0] => destruct (a =? 0) end; unfold prefixLength in *; lia. }
      assert (GB : forall x, getInt b x = b) by (intros x; unfold getInt; destruct (Z.eqb_spec b 0); [contradiction|auto]).
      rewrite !GB in L2. destruct (Z.ltb_spec b mn); lia.
Qed.

Lemma null_value : forall GE x st st', madeBy GE GNull x st st' -> x = JNull.
Proof.
  intros GE x st st' (a & b & H & _). apply yields_step in H. destruct H as (f & H). cbn [genStep] in H.
  stepM H. apply ret_ok in H. tauto.
Qed.
Lemma text_value : forall GE x st st', madeBy GE (GString "" "" 0 0) x st st' -> exists s, x = JStr s.
Proof.
  intros GE x st st' (a & b & H & _). apply yields_step in H. destruct H as (f & H). cbn [genStep] in H.
  apply genString_ok in H; try lia. destruct H as (s & -> & _). eauto.
Qed.

(* where the elements come from *)
Lemma array_elements : forall PE GE n g st v st', plain n -> ofType "array" n -> smallSizes n -> smallOptions (eOpts GE) ->
  accepted PE n g -> yields GE g st v st' ->
  cutShort GE st v \/
  exists tv cv rv, v = JArr (tv ++ cv ++ rv)%list /\
    Forall2 (fun c x => fromSchema PE GE c x st st') (positional n) tv /\
    match sContains n with
    | None => cv = []
    | Some c => exists c', containsFrom PE c n c' /\
        (itemsFalse n = false -> Z.of_nat (List.length cv) = minContainsOf n) /\
        (forall x, In x cv -> fromSchema PE GE c' x st st' \/
           (sUniqueItems n = Some true /\ x = JStr (uniqueWarning GE) /\ emitted EvUniqueFail st st'))
    end /\
    (forall x, In x rv ->
       match itemsNode n, addlItemsNode n, unevalNode n with
       | Some c, _, _ => fromSchema PE GE c x st st'
       | None, Some c, _ => fromSchema PE GE c x st st'
       | None, None, Some c => fromSchema PE GE c x st st'
       | None, None, None => if get_or (sUniqueItems n) false then exists s, x = JStr s else x = JNull
       end \/ (sUniqueItems n = Some true /\ x = JStr (uniqueWarning GE) /\ emitted EvUniqueFail st st')) /\
    (itemsFalse n = true -> cv = [] /\ rv = []).
Proof.
  intros PE GE n g st v st' HP HT HS HO HA HY.
  destruct (array_facts PE GE n g st v st' HP HT HS HO HA HY) as [C|F]; [left; auto|right].
  destruct F as (f & tu & it & ad & ct & un & tv & cv & rv & F). cbv zeta in F.
  destruct F as (-> & T & V & IT & AD & UN & CT & B1 & B3 & B4 & B5 & F).
  exists tv, cv, rv. split; auto. split.
  { eapply Forall2_impl; [|exact (Forall2_comp _ _ _ _ _ _ _ _ T V)]. intros a x (g' & A & M). exists g'. auto. }
  assert (U : forall b, get_or (sUniqueItems n) false = b -> b = true -> sUniqueItems n = Some true).
  { intros b Hb ->. destruct (sUniqueItems n) as [[|]|]; cbn [get_or] in Hb; congruence. }
  destruct (itemsFalse n).
  - destruct F as [-> ->]. split; [|split; [intros x []|auto]].
    destruct (sContains n) as [c|]; auto. destruct CT as (c' & gc & _ & CF & _). exists c'. split; auto. split; [discriminate|intros x []].
  - destruct F as (AC & LC & AR & _). split; [|split; [|discriminate]].
    + destruct (sContains n) as [c|].
      * destruct CT as (c' & gc & -> & CF & A). exists c'. split; auto. split; auto. intros x Hx.
        destruct (appended_made _ _ _ _ _ _ _ _ AC x Hx) as [M|(M1 & M2 & M3)].
        -- left. exists gc. auto.
        -- right. split; auto. eapply U; eauto.
      * destruct cv; auto. cbn [List.length] in LC. lia.
    + intros x Hx. destruct (appended_made _ _ _ _ _ _ _ _ AR x Hx) as [M|(M1 & M2 & M3)].
      * left. unfold ofOption in *. unfold fillGen in M. destruct (itemsNode n) as [c|].
        { destruct IT as (gi & -> & A). exists gi. auto. }
        subst it. destruct (addlItemsNode n) as [c|].
        { destruct AD as (gi & -> & A). exists gi. auto. }
        subst ad. destruct (unevalNode n) as [c|].
        { destruct UN as (gi & -> & A). exists gi. auto. }
        subst un. destruct (get_or (sUniqueItems n) false).
        -- eapply text_value; eauto.
        -- eapply null_value; eauto.
      * right. split; auto. eapply U; eauto.
Qed.

(* uniqueItems *)
Lemma same_text_iff : forall a b, same_text a b = true <-> a = b.
Proof.
  intros [x|] [y|]; simpl; split; intros H; try congruence.
  - f_equal. now apply enc_eqb_eq.
  - injection H as ->. now apply enc_eqb_eq.
Qed.
Lemma textsDiffer_snoc : forall l v, textsDiffer l -> existsb (same_text (marshal v)) (map marshal l) = false ->
  textsDiffer (l ++ [v]).
Proof.
  intros l v D N.
  assert (N' : forall x, In x l -> marshal v <> marshal x).
  { intros x Hx E. assert (T : existsb (same_text (marshal v)) (map marshal l) = true); [|congruence].
    apply existsb_exists. exists (marshal x). split; [now apply in_map|]. now apply same_text_iff. }
  intros i j a b Hi Hj Hn.
  assert (CI : forall k c, nth_error (l ++ [v]) k = Some c -> (nth_error l k = Some c /\ (k < List.length l)%nat) \/ (c = v /\ k = List.length l)).
  { intros k c Hk. destruct (Nat.lt_ge_cases k (List.length l)).
    - rewrite nth_error_app1 in Hk by auto. auto.
    - rewrite nth_error_app2 in Hk by auto. remember (k - List.length l)%nat as d. destruct d as [|[|d]]; cbn in Hk; try discriminate.
      injection Hk as <-. right. split; auto. lia. }
  apply CI in Hi, Hj. destruct Hi as [[Hi Li]|[-> Li]], Hj as [[Hj Lj]|[-> Lj]].
  - eapply D; eauto.
  - apply nth_error_In in Hi. intros E. apply (N' a Hi). auto.
  - apply nth_error_In in Hj. auto.
  - lia.
Qed.
Lemma appended_differ : forall GE G g s0 s1 data r, appended GE G true g s0 s1 data r -> textsDiffer data ->
  textsDiffer (data ++ r) \/ emitted EvUniqueFail s0 s1.
Proof.
  intros GE G g s0 s1 data r H. induction H; intros D.
  - rewrite app_nil_r. auto.
  - destruct IHappended as [I|I]; auto.
    + apply textsDiffer_snoc; auto.
    + rewrite <- app_assoc in I. auto.
  - auto.
Qed.
Lemma array_differ : forall PE GE n g st v st', plain n -> ofType "array" n -> smallSizes n -> smallOptions (eOpts GE) ->
  sUniqueItems n = Some true -> positional n = [] ->
  accepted PE n g -> yields GE g st v st' ->
  cutShort GE st v \/ emitted EvUniqueFail st st' \/ exists l, v = JArr l /\ textsDiffer l.
Proof.
  intros PE GE n g st v st' HP HT HS HO HU HN HA HY.
  destruct (array_facts PE GE n g st v st' HP HT HS HO HA HY) as [C|F]; [left; auto|right].
  destruct F as (f & tu & it & ad & ct & un & tv & cv & rv & F). cbv zeta in F.
  destruct F as (-> & T & V & IT & AD & UN & CT & B1 & B3 & B4 & B5 & F).
  change (tupleNodes n) with (positional n) in T. rewrite HN in T. inversion T; subst. inversion V; subst. clear T V.
  rewrite HU in F. cbn [get_or app] in *.
  assert (D0 : textsDiffer []) by (intros i j a b Hi; destruct i; discriminate).
  destruct (itemsFalse n).
  - destruct F as [-> ->]. right. exists []. auto.
  - destruct F as (AC & _ & AR & _).
    assert (X : textsDiffer cv \/ emitted EvUniqueFail st st').
    { destruct ct as [gc|]; [|subst cv; auto]. apply appended_differ in AC; auto. }
    destruct X as [X|X]; auto. apply appended_differ in AR; auto. destruct AR as [AR|AR]; auto. right. eauto.
Qed.

(* ------------------------------------------------------------------ objects *)
Lemma child_made : forall PE GE c g x st st', childOf PE c g -> madeBy GE g x st st' -> fromChild PE GE c x st st'.
Proof.
  intros PE GE c g x st st' [A|[R ->]] M.
  - left. exists g. auto.
  - right. split; auto. eapply null_value; eauto.
Qed.
Lemma assoc_Forall2 : forall A B (R : A -> B -> Prop) (l : list (string * A)) (l' : list (string * B)) k,
  Forall2 (fun a b => fst b = fst a /\ R (snd a) (snd b)) l l' ->
  match assoc k l' with Some b => exists a, assoc k l = Some a /\ R a b | None => assoc k l = None end.
Proof.
  intros A B R l l' k F. induction F as [|[k1 a] [k2 b] l l' [E H] F IH]; cbn in *; auto. subst k2.
  destruct (String.eqb k k1); eauto.
Qed.
Lemma keys_Forall2 : forall A B (R : A -> B -> Prop) (l : list (string * A)) (l' : list (string * B)),
  Forall2 (fun a b => fst b = fst a /\ R (snd a) (snd b)) l l' -> keys l' = keys l.
Proof. intros A B R l l' F. induction F as [|[k1 a] [k2 b] l l' [E H] F IH]; auto. cbn [fst] in E. unfold keys in *. cbn [map fst]. congruence. Qed.

Definition objLow (GE : env) (n : schemaNode) : Z := getInt (get_or (sMinProperties n) 0) (oDefaultObjectMinProperties (eOpts GE)).
Definition objHigh (GE : env) (n : schemaNode) : Z :=
  let mx0 := getInt (get_or (sMaxProperties n) 0) (oDefaultObjectMaxProperties (eOpts GE)) in
  if mx0 <? objLow GE n then objLow GE n + mx0 else mx0.

Lemma object_facts : forall PE GE n g st v st', plain n -> ofType "object" n -> smallSizes n -> smallOptions (eOpts GE) ->
  accepted PE n g -> yields GE g st v st' ->
  cutShort GE st v \/
  exists m, v = JObj m /\ NoDup (keys m) /\
    (forall k x, In (k, x) m -> propertyOrigin PE GE n st st' k x) /\
    (forall k, In k (get_or (sRequired n) []) -> In k (keys m)) /\
    Z.of_nat (List.length m) <= Z.max (Z.of_nat (List.length (get_or (sRequired n) []))) (objHigh GE n) /\
    ((get_or (sPatternProperties n) [] <> [] \/ addlFalse n = false) ->
     (forall k, In k (get_or (sRequired n) []) -> ~ fillerKey k) ->
     (forall k, In k (keys (get_or (sProperties n) [])) -> ~ fillerKey k) ->
     (forall re c e k, In (re, c) (get_or (sPatternProperties n) []) -> eRegen GE re e = Ok k -> ~ fillerKey k) ->
     objLow GE n <= Z.of_nat (List.length m)) /\
    (forall mx, sMaxProperties n = Some mx -> get_or (sMinProperties n) 0 <= mx /\ Z.of_nat (List.length (get_or (sRequired n) [])) <= mx).
Proof.
  intros PE GE n g st v st' HP HT HS HO HA HY.
  apply (accepted_typed PE n g "object") in HA; auto; [|discriminate]. destruct HA as (f & s & s' & H).
  change (parseObject PE (parseF PE f false) n s = Ok (Good g, s')) in H. apply parseObject_shape in H.
  destruct H as (ps & pats & add & -> & F1 & F2 & F3 & L1 & L2 & L3 & _).
  apply yields_step in HY. destruct HY as (k & H). cbn [genStep] in H.
  set (c := mkObj _ _ _ _) in *.
  assert (O1 : 0 <= oDefaultObjectMinProperties (eOpts GE) < 2 ^ 60) by (apply HO; simpl; tauto).
  assert (O2 : 0 <= oDefaultObjectMaxProperties (eOpts GE) < 2 ^ 60) by (apply HO; simpl; tauto).
  pose proof (small_get n (sMinProperties n) HS ltac:(simpl; tauto)) as Hmn.
  pose proof (small_get n (sMaxProperties n) HS ltac:(simpl; tauto)) as Hmx.
  assert (OK : objOk GE c).
  { unfold objOk, objMax, objMin, c. cbn [bMinProperties bMaxProperties].
    destruct (getInt_cases (get_or (sMinProperties n) 0) (oDefaultObjectMinProperties (eOpts GE))) as [[-> _]|[-> _]];
    destruct (getInt_cases (get_or (sMaxProperties n) 0) (oDefaultObjectMaxProperties (eOpts GE))) as [[-> _]|[-> _]];
    match goal with |- context [?a <? ?b] => destruct (Z.ltb_spec a b) end; lia. }
  assert (KP : keys ps = keys (get_or (sProperties n) [])) by (eapply keys_Forall2; eauto).
  assert (PP : forall re b g0, In (re, (b, g0)) pats -> exists sub, In (re, sub) (get_or (sPatternProperties n) []) /\ b = pxPropRegexOk PE re /\ childOf PE sub g0).
  { intros re b g0 HI. destruct (Forall2_In_r _ _ _ _ _ _ F2 HI) as ([re' sub] & I & E1 & E2 & E3). cbn [fst snd] in *. subst. eauto. }
  assert (PN : pats = [] <-> get_or (sPatternProperties n) [] = []).
  { split; intros E; rewrite E in F2; inversion F2; auto. }
  eapply genObject_ok in H; [|apply fwd_generate|exact OK].
  destruct H as [(-> & _ & H)|(m & -> & [ND HG] & R & U & W)]; [left; split; auto|right].
  exists m. split; auto. split; auto. split; [|split; [exact R|split; [exact U|split; [|exact L3]]]].
  - intros kk x HI. apply HG in HI. destruct HI.
    + apply prod_made in H0. pose proof (assoc_Forall2 _ _ _ _ _ kk F1) as A. rewrite H in A. destruct A as (sub & A1 & A2).
      eapply po_declared; eauto. eapply child_made; eauto.
    + pose proof (assoc_Forall2 _ _ _ _ _ kk F1) as A. rewrite H0 in A. eapply po_required; eauto.
    + apply PP in H. destruct H as (sub & I & _ & C). apply prod_made in H1. eapply po_pattern; eauto. eapply child_made; eauto.
    + apply PP in H. destruct H as (sub & I & E & _). eapply po_badpattern; eauto.
    + apply PN in H0. apply prod_made in H4. destruct (addlNode n) as [sub|] eqn:AN; [|congruence].
      destruct F3 as (a & F3 & C). eapply po_additional; eauto. eapply child_made; eauto. congruence.
    + apply PN in H0. apply prod_made in H5. destruct (addlNode n) as [sub|] eqn:AN; [destruct F3 as (a & F3 & _); congruence|].
      eapply po_fallback; eauto. eapply null_value; eauto.
    + apply prod_made in H3. eapply po_filler; eauto.
      * destruct H0 as [H0|H0]; auto. left. intros E. apply H0. now apply PN.
      * intros NDr. specialize (H1 NDr). unfold objMin, c in H1. cbn [bRequired bMinProperties] in H1.
        destruct (getInt_cases (get_or (sMinProperties n) 0) (oDefaultObjectMinProperties (eOpts GE))) as [[X _]|[X _]]; rewrite X in H1; lia.
      * destruct (addlNode n) as [sub|].
        -- destruct F3 as (a & -> & C). eapply child_made; eauto.
        -- subst add. cbn [get_or] in H2. eapply null_value; eauto.
  - intros Q1 Q2 Q3 Q4. apply W.
    + destruct Q1 as [Q1|Q1]; auto. left. intros E. apply Q1. now apply PN.
    + exact Q2.
    + rewrite KP. exact Q3.
    + intros re g0 e kk HI. apply PP in HI. destruct HI as (sub & I & _). eapply Q4; eauto.
Qed.

Lemma object_required : forall PE GE n g st v st', plain n -> ofType "object" n -> smallSizes n -> smallOptions (eOpts GE) ->
  accepted PE n g -> yields GE g st v st' ->
  cutShort GE st v \/ exists m, v = JObj m /\ forall k, In k (get_or (sRequired n) []) -> In k (keys m).
Proof.
  intros PE GE n g st v st' HP HT HS HO HA HY.
  destruct (object_facts PE GE n g st v st' HP HT HS HO HA HY) as [C|(m & E & _ & _ & R & _)]; [left; auto|right; eauto].
Qed.
Lemma object_max : forall PE GE n g st v st', plain n -> ofType "object" n -> smallSizes n -> smallOptions (eOpts GE) ->
  sMaxProperties n <> Some 0 -> (forall m, sMaxProperties n = Some m -> oDefaultObjectMinProperties (eOpts GE) <= m) ->
  accepted PE n g -> yields GE g st v st' ->
  cutShort GE st v \/ exists m, v = JObj m /\ NoDup (keys m) /\ okRange None (sMaxProperties n) (Z.of_nat (List.length m)).
Proof.
  intros PE GE n g st v st' HP HT HS HO M0 HD HA HY.
  destruct (object_facts PE GE n g st v st' HP HT HS HO HA HY) as [C|(m & E & ND & _ & _ & U & _ & L)]; [left; auto|right].
  exists m. split; auto. split; auto. split; [discriminate|]. intros b Hb.
  destruct (L b Hb) as [L1 L2]. specialize (HD b Hb). unfold objHigh, objLow in U. rewrite Hb in U. cbn [get_or] in U.
  assert (b <> 0) by congruence. cbv zeta in U.
  assert (GB : forall x, getInt b x = b) by (intros x; unfold getInt; destruct (Z.eqb_spec b 0); [contradiction|auto]).
  rewrite !GB in U.
  destruct (getInt_cases (get_or (sMinProperties n) 0) (oDefaultObjectMinProperties (eOpts GE))) as [[G _]|[G _]]; rewrite G in U;
  match type of U with context [?a <? ?c] => destruct (Z.ltb_spec a c) end; lia.
Qed.
Lemma object_min : forall PE GE n g st v st', plain n -> ofType "object" n -> smallSizes n -> smallOptions (eOpts GE) ->
  addlFalse n = false ->
  (forall k, In k (get_or (sRequired n) []) \/ In k (keys (get_or (sProperties n) [])) -> ~ fillerKey k) ->
  (forall re c e k, In (re, c) (get_or (sPatternProperties n) []) -> eRegen GE re e = Ok k -> ~ fillerKey k) ->
  accepted PE n g -> yields GE g st v st' ->
  cutShort GE st v \/ exists m, v = JObj m /\ NoDup (keys m) /\ okRange (sMinProperties n) None (Z.of_nat (List.length m)).
Proof.
  intros PE GE n g st v st' HP HT HS HO HF HK HR HA HY.
  destruct (object_facts PE GE n g st v st' HP HT HS HO HA HY) as [C|(m & E & ND & _ & _ & _ & W & _)]; [left; auto|right].
  exists m. split; auto. split; auto. split; [|discriminate]. intros a Ha.
  specialize (W (or_intror HF) ltac:(auto) ltac:(auto) HR). unfold objLow in W. rewrite Ha in W. cbn [get_or] in W.
  destruct (getInt_cases a (oDefaultObjectMinProperties (eOpts GE))) as [[G _]|[G Z0]]; rewrite G in W; [lia|].
  assert (0 <= oDefaultObjectMinProperties (eOpts GE)) by (apply HO; simpl; tauto). lia.
Qed.
Lemma object_keys : forall PE GE n g st v st', plain n -> ofType "object" n -> smallSizes n -> smallOptions (eOpts GE) ->
  addlFalse n = true -> accepted PE n g -> yields GE g st v st' ->
  cutShort GE st v \/ exists m, v = JObj m /\ forall k, In k (keys m) ->
    In k (keys (get_or (sProperties n) [])) \/ In k (get_or (sRequired n) []) \/
    exists re c, In (re, c) (get_or (sPatternProperties n) []) /\
      ((exists e, eRegen GE re e = Ok k) \/ (pxPropRegexOk PE re = false /\ k = "") \/ (exists i, 0 <= i /\ k = "min_filler_" ++ itoa i)).
Proof.
  intros PE GE n g st v st' HP HT HS HO HF HA HY.
  destruct (object_facts PE GE n g st v st' HP HT HS HO HA HY) as [C|(m & E & _ & O & _)]; [left; auto|right].
  exists m. split; auto. intros k Hk. unfold keys in Hk. apply in_map_iff in Hk. destruct Hk as ([k' x] & <- & HI). cbn [fst].
  apply O in HI. destruct HI.
  - left. eapply assoc_Some_key; eauto.
  - auto.
  - right; right. exists re, c. split; auto. left; eauto.
  - right; right. exists re, c. split; auto.
  - unfold addlNode, addlFalse in *. destruct (sAdditionalProperties n) as [d|]; [|discriminate]. rewrite HF in H1. discriminate.
  - congruence.
  - right; right. destruct H0 as [H0|H0]; [|congruence].
    destruct (get_or (sPatternProperties n) []) as [|[re c] r]; [congruence|]. exists re, c. split; [left; auto|]. right; right. eauto.
Qed.
Lemma object_values : forall PE GE n g st v st', plain n -> ofType "object" n -> smallSizes n -> smallOptions (eOpts GE) ->
  accepted PE n g -> yields GE g st v st' ->
  cutShort GE st v \/ exists m, v = JObj m /\ forall k x c, assoc k m = Some x -> assoc k (get_or (sProperties n) []) = Some c ->
    (forall i, 0 <= i -> k <> "additional_" ++ itoa i /\ k <> "fallback_" ++ itoa i /\ k <> "min_filler_" ++ itoa i) ->
    (forall re p, In (re, p) (get_or (sPatternProperties n) []) -> (pxPropRegexOk PE re = true \/ k <> "") /\ forall e, eRegen GE re e <> Ok k) ->
    fromChild PE GE c x st st'.
Proof.
  intros PE GE n g st v st' HP HT HS HO HA HY.
  destruct (object_facts PE GE n g st v st' HP HT HS HO HA HY) as [C|(m & E & _ & O & _)]; [left; auto|right].
  exists m. split; auto. intros k x c Hx Hc NC NP. apply assoc_In in Hx. apply O in Hx. destruct Hx.
  - replace c with c0 by congruence. auto.
  - congruence.
  - exfalso. eapply (NP re c0); eauto.
  - exfalso. destruct (proj1 (NP re c0 H)); congruence.
  - exfalso. destruct (NC i) as (? & ? & ?); auto.
  - exfalso. destruct (NC i) as (? & ? & ?); auto.
  - exfalso. destruct (NC i) as (? & ? & ?); auto.
Qed.

(* ------------------------------------------------------------------ enum and const *)
Lemma const_value : forall GE v w st st', yields GE (GConst v) st w st' -> w = v.
Proof. intros GE v w st st' H. apply yields_step in H. destruct H as (f & H). cbn [genStep] in H. apply ret_ok in H. tauto. Qed.
Lemma enum_value : forall GE l w st st', yields GE (GEnum l) st w st' -> In w l.
Proof.
  intros GE l w st st' H. apply yields_step in H. destruct H as (f & H). cbn [genStep] in H. stepM H. stepM H.
  apply lift_ok in H. destruct H as [H _]. eapply choice_In; eauto.
Qed.
Lemma enum_values : forall PE GE n x l g fuel s s' st v st', flat n -> sEnum n = Some (x :: l) ->
  parseNode PE fuel n s = Ok (Good g, s') -> yields GE g st v st' ->
  In v (x :: l) /\
  (assoc (scope s ++ normalisePath (pPath s ++ "/enum")) (pRes s) = None -> pxValid PE n v = true).
Proof.
  intros PE GE n x l g fuel s s' st v st' HF HE HP HY.
  apply parseNode_step in HP; [|apply HF]. destruct HP as (f & s1 & s2 & H & E1 & E2 & E3).
  eapply step_enum in H; eauto. apply parseEnum_shape in H. destruct H as (c & l0 & [C1 _] & L & H).
  assert (I : In v l0).
  { destruct H as [(w & -> & ->)|(a & b & r & -> & ->)].
    - apply const_value in HY. subst. left; auto.
    - eapply enum_value; eauto. }
  rewrite L in I. apply filter_In in I. destruct I as [I V]. rewrite HE in I. cbn [get_or] in I. split; auto.
  intros N. rewrite E1, E2, E3 in C1.
  match type of C1 with context [assoc ?x _] => change x with (scope s ++ normalisePath (pPath s ++ "/enum")) in C1 end. rewrite N in C1. cbn [get_or] in C1. congruence.
Qed.
Lemma const_values : forall PE GE n x g fuel s s' st v st', flat n -> (sEnum n = None \/ sEnum n = Some []) -> sConst n = Some x ->
  parseNode PE fuel n s = Ok (Good g, s') -> yields GE g st v st' ->
  v = x /\ (assoc (scope s ++ normalisePath (pPath s ++ "/const")) (pRes s) = None -> pxValid PE n v = true).
Proof.
  intros PE GE n x g fuel s s' st v st' HF HE HC HP HY.
  apply parseNode_step in HP; [|apply HF]. destruct HP as (f & s1 & s2 & H & E1 & E2 & E3).
  eapply step_const in H; eauto. apply parseConst_shape in H. destruct H as (c & [C1 _] & V & ->).
  apply const_value in HY. subst v. split; auto. intros N. rewrite E1, E2, E3 in C1.
  match type of C1 with context [assoc ?x _] => change x with (scope s ++ normalisePath (pPath s ++ "/const")) in C1 end. rewrite N in C1. cbn [get_or] in C1. congruence.
Qed.

(* ------------------------------------------------------------------ types *)
Lemma parseType_type : forall PE rec mrg t T n s, parseType PE rec mrg t (set_sType T n) s = parseType PE rec mrg t n s.
Proof. intros. destruct n. reflexivity. Qed.
Lemma unsupported_type : forall T n, unsupported (set_sType T n) = unsupported n.
Proof. intros. destruct n. reflexivity. Qed.
Lemma plain_type : forall T n, plain n -> plain (set_sType T n).
Proof. intros T n [A1 A2 A3 A4 A5 A6 A7 A8 A9 A10 A11]. destruct n. constructor; assumption. Qed.
Lemma sType_set : forall T n, sType (set_sType T n) = T.
Proof. intros. destruct n. reflexivity. Qed.

(* a step run at an admissible depth is the body of a run of parseNode *)
Lemma node_of_step : forall PE f n s1 r s2, sConstraints n = None -> pDepth s1 <= pxMaxDepth PE -> pDepth s1 <= pDeep s1 ->
  stepF PE f n s1 = Ok (r, s2) -> exists s s', parseNode PE (S (S f)) n s = Ok (r, s').
Proof.
  intros PE f n s1 r s2 HC HD HM H. exists (withDepth (pDepth s1 - 1) s1).
  unfold parseNode. cbn [parseF]. unfold nodeStep. unfold pbind at 1. unfold pget at 1.
  unfold pbind at 1. unfold pmod at 1.
  replace (pDepth (withDepth (pDepth s1 - 1) s1) + 1) with (pDepth s1) by (destruct s1; cbn; lia).
  destruct (Z.ltb_spec (pxMaxDepth PE) (pDepth s1)); [lia|].
  unfold pbind at 1. unfold pbind at 1. unfold pmod at 1.
  replace (withDeep (Z.max (pDeep (withDepth (pDepth s1) (withDepth (pDepth s1 - 1) s1))) (pDepth (withDepth (pDepth s1) (withDepth (pDepth s1 - 1) s1))))
     (withDepth (pDepth s1) (withDepth (pDepth s1 - 1) s1))) with s1.
  2:{ destruct s1; cbn in *. rewrite Z.max_l by lia. reflexivity. }
  unfold stepF in H. unfold pbind at 1. rewrite H. rewrite HC.
  destruct (isBad r); destruct (sId n); eexists; reflexivity.
Qed.

Lemma keeps_deep : forall E s s', keeps E s s' -> pDepth s <= pxMaxDepth E /\ pDepth s <= pDeep s -> pDepth s' <= pxMaxDepth E /\ pDepth s' <= pDeep s'.
Proof. intros E s s' K [A B]. pose proof (kDepth _ _ _ K). pose proof (kDeep _ _ _ K). lia. Qed.

(* one entry of a type list: what the node with that type alone becomes *)
Lemma type_node : forall PE f t n s r s', plain n -> unsupported n = false -> t <> "" -> pDepth s <= pxMaxDepth PE /\ pDepth s <= pDeep s ->
  parseType PE (parseF PE f false) (merge PE f) t n s = Ok (r, s') ->
  match r with Good g => accepted PE (withType t n) g | Bad _ => rejected PE (withType t n) end.
Proof.
  intros PE f t n s r s' HP HU Ht [D1 D2] H.
  assert (S : stepF PE f (withType t n) s = Ok (r, s')).
  { rewrite step_plain; [|apply plain_type; auto|unfold withType; rewrite unsupported_type; auto].
    unfold byType, withType. rewrite sType_set. cbn [mtMultiple mtSingle].
    destruct (String.eqb_spec t ""); [congruence|]. cbn [negb]. rewrite parseType_type. exact H. }
  apply node_of_step in S; auto.
  - destruct S as (a & b & S). destruct r as [g|m].
    + exists (Datatypes.S (Datatypes.S f)), a, b. exact S.
    + exists (Datatypes.S (Datatypes.S f)), a, b, m. exact S.
  - apply (plConstraints _ (plain_type _ _ HP)).
Qed.
Lemma type_child : forall PE f t n s r s', plain n -> unsupported n = false -> t <> "" -> pDepth s <= pxMaxDepth PE /\ pDepth s <= pDeep s ->
  parseType PE (parseF PE f false) (merge PE f) t n s = Ok (r, s') -> childOf PE (withType t n) (orNull r).
Proof.
  intros PE f t n s r s' HP HU Ht D H. apply type_node in H; auto. destruct r; [left|right]; auto.
Qed.
Lemma types_children : forall PE f ts n s gs s', plain n -> unsupported n = false -> ~ In "" ts -> pDepth s <= pxMaxDepth PE /\ pDepth s <= pDeep s ->
  parseTypes PE (parseF PE f false) (merge PE f) ts n s = Ok (gs, s') ->
  Forall2 (fun t g => childOf PE (withType t n) g) ts gs.
Proof.
  intros PE f. induction ts as [|t ts IH]; intros n s gs s' HP HU HN HD H; cbn [parseTypes] in H.
  - apply pret_ok in H. destruct H as [-> _]. constructor.
  - apply pbind_ok in H. destruct H as (r & s0 & H0 & H). apply pbind_ok in H. destruct H as (gs0 & s1 & H1 & H).
    apply pret_ok in H. destruct H as [-> _]. constructor.
    + eapply type_child; eauto. intros ->. apply HN. left; auto.
    + apply (IH n s0 gs0 s1); auto; [intros X; apply HN; right; auto|].
      eapply keeps_deep; [|exact HD]. eapply st_parseType; [| |exact H0]; auto using st_merge, st_parseF.
Qed.

Lemma plain_supported : forall PE n g, plain n -> accepted PE n g -> unsupported n = false.
Proof. intros PE n g HP HA. apply accepted_step in HA; [|apply HP]. destruct HA as (f & s & s' & H). eapply step_supported; eauto. Qed.

Lemma type_list : forall PE GE n x ts g st v st', plain n -> sType n = Some (mkMT x (Some ts)) -> ~ In "" ts ->
  accepted PE n g -> yields GE g st v st' ->
  exists t, In t ts /\ fromChild PE GE (withType t n) v st st'.
Proof.
  intros PE GE n x ts g st v st' HP HT HN HA HY. pose proof (plain_supported _ _ _ HP HA) as HU.
  apply accepted_deep in HA; [|apply HP]. destruct HA as (f & s & s' & H & D).
  rewrite step_plain in H; auto. apply byType_multiple with (1 := HT) in H. destruct H as (gs & s1 & -> & H).
  apply types_children in H; auto. apply yields_step in HY. destruct HY as (k & HY). cbn [genStep] in HY.
  apply genOneOf_ok in HY. destruct HY as (g & HI & M). apply prod_made in M.
  destruct (Forall2_In_r _ _ _ _ _ _ H HI) as (t & It & C). exists t. split; auto. eapply child_made; eauto.
Qed.
(* no type: the first group of keywords that is used decides, and a node without any stands for all types *)
Lemma type_inferred : forall PE n g t, plain n -> sType n = None -> inferType n = t -> t <> "unknown" ->
  accepted PE n g -> accepted PE (withType t n) g.
Proof.
  intros PE n g t HP HT HI Hu HA. pose proof (plain_supported _ _ _ HP HA) as HU.
  apply accepted_deep in HA; [|apply HP]. destruct HA as (f & s & s' & H & D).
  rewrite step_plain in H; auto. unfold byType in H. rewrite HT, HI in H.
  destruct (String.eqb_spec t "unknown"); [contradiction|].
  assert (N : t <> "").
  { subst t. unfold inferType. repeat match goal with |- (if ?b then _ else _) <> _ => destruct b end; discriminate. }
  apply type_node in H; auto.
Qed.
Lemma type_unknown : forall PE GE n g st v st', plain n -> sType n = None -> inferType n = "unknown" ->
  accepted PE n g -> yields GE g st v st' ->
  exists t, In t typeAll /\ fromChild PE GE (withType t n) v st st'.
Proof.
  intros PE GE n g st v st' HP HT HI HA HY. pose proof (plain_supported _ _ _ HP HA) as HU.
  apply accepted_deep in HA; [|apply HP]. destruct HA as (f & s & s' & H & D).
  rewrite step_plain in H; auto. unfold byType in H. rewrite HT, HI, String.eqb_refl in H.
  unfold parseMultiple in H. apply pbind_ok in H. destruct H as (gs & s1 & H & H1). apply good_ok in H1. destruct H1 as [-> _].
  apply types_children in H; auto. 2:{ cbn. intuition discriminate. }
  apply yields_step in HY. destruct HY as (k & HY). cbn [genStep] in HY.
  apply genOneOf_ok in HY. destruct HY as (g & HI' & M). apply prod_made in M.
  destruct (Forall2_In_r _ _ _ _ _ _ H HI') as (t & It & C). exists t. split; auto. eapply child_made; eauto.
Qed.
