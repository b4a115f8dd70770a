(* The value of a plain schema comes from one type, and its JSON kind tells which. *)
From Coq Require Import ZArith List String Ascii Bool Lia.
From Verif Require Import Base Float64 Json Schema Util Rand Options Number Gen GenFacts GenInv GenValues.
From Verif Require Import PState RefPath Merge NotMerge Parse PFacts ParseKeep SpecSchema SpecRun ParseShape ValueProps.
Import ListNotations.
Open Scope string_scope.
Open Scope Z_scope.

Lemma fromSchema_widen : forall PE GE n x a b a' b', fromSchema PE GE n x a b -> after a' a -> after b b' -> fromSchema PE GE n x a' b'.
Proof. intros PE GE n x a b a' b' (g & A & p & q & Y & P & Q) HA HB. exists g. split; auto. exists p, q. split; auto. split; eapply after_trans; eauto. Qed.
Lemma fromChild_widen : forall PE GE n x a b a' b', fromChild PE GE n x a b -> after a' a -> after b b' -> fromChild PE GE n x a' b'.
Proof. intros PE GE n x a b a' b' [H|H] HA HB; [left; eapply fromSchema_widen; eauto|right; auto]. Qed.

Lemma withType_same : forall t n, ofType t n -> withType t n = n.
Proof. intros t n H. unfold withType, ofType in *. rewrite <- H. destruct n; reflexivity. Qed.

Lemma types_children' : forall PE f ts n s gs s', plain n -> unsupported n = false -> pDepth s <= pxMaxDepth PE /\ pDepth s <= pDeep s ->
  parseTypes PE (parseF PE f false) (merge PE f) ts n s = Ok (gs, s') ->
  Forall2 (fun t g => (t = "" /\ g = GNull) \/ (t <> "" /\ childOf PE (withType t n) g)) ts gs.
Proof.
  intros PE f. induction ts as [|t ts IH]; intros n s gs s' HP HU HD H; cbn [parseTypes] in H.
  - apply pret_ok in H. destruct H as [-> _]. constructor.
  - apply pbind_ok in H. destruct H as (r & s0 & H0 & H). apply pbind_ok in H. destruct H as (gs0 & s1 & H1 & H).
    apply pret_ok in H. destruct H as [-> _]. constructor.
    + destruct (String.eqb_spec t "") as [->|N].
      * left. split; auto. cbn in H0. unfold good in H0. apply pret_ok in H0. destruct H0 as [-> _]. reflexivity.
      * right. split; auto. eapply type_child; eauto.
    + apply (IH n s0 gs0 s1); auto.
      eapply keeps_deep; [|exact HD]. eapply st_parseType; [| |exact H0]; auto using st_merge, st_parseF.
Qed.

(* the value of a plain node was made by the node with one of the types it allows *)
Lemma plain_types : forall PE GE n g st v st', plain n -> accepted PE n g -> yields GE g st v st' ->
  v = JNull \/ exists t, t <> "" /\ fromSchema PE GE (withType t n) v st st'.
Proof.
  intros PE GE n g st v st' HP HA HY. pose proof (plain_supported _ _ _ HP HA) as HU.
  pose proof HA as HA0.
  apply accepted_deep in HA; [|apply HP]. destruct HA as (f & s & s' & H & D).
  rewrite step_plain in H; auto.
  assert (M : forall ts, parseMultiple PE (parseF PE f false) (merge PE f) ts n s = Ok (Good g, s') ->
              v = JNull \/ exists t, t <> "" /\ fromSchema PE GE (withType t n) v st st').
  { intros ts X. unfold parseMultiple in X. apply pbind_ok in X. destruct X as (gs & s1 & X & X1). apply good_ok in X1. destruct X1 as [-> _].
    apply types_children' in X; auto. apply yields_step in HY. destruct HY as (k & HY). cbn [genStep] in HY.
    apply genOneOf_ok in HY. destruct HY as (g & HI & MB). apply prod_made in MB.
    destruct (Forall2_In_r _ _ _ _ _ _ X HI) as (t & It & [[-> ->]|[N C]]).
    - left. eapply null_value; eauto.
    - destruct C as [C|[_ ->]].
      + right. exists t. split; auto. exists g. auto.
      + left. eapply null_value; eauto. }
  assert (S : forall t, t <> "" -> parseType PE (parseF PE f false) (merge PE f) t n s = Ok (Good g, s') ->
              v = JNull \/ exists t, t <> "" /\ fromSchema PE GE (withType t n) v st st').
  { intros t N X. right. exists t. split; auto. apply type_node in X; auto. exists g. split; auto. apply yields_made; auto. }
  unfold byType in H. destruct (match sType n with Some t => mtMultiple t | None => None end); [eapply M; eauto|].
  assert (NI : inferType n <> "") by (unfold inferType; repeat match goal with |- (if ?b then _ else _) <> _ => destruct b end; discriminate).
  destruct (sType n) as [[t ts]|].
  - cbn [mtSingle] in H. destruct (String.eqb_spec t ""); cbn [negb] in H; [|eauto].
    destruct (String.eqb (inferType n) "unknown"); eauto.
  - destruct (String.eqb (inferType n) "unknown"); eauto.
Qed.

Lemma smallSizes_type : forall T n, smallSizes n -> smallSizes (set_sType T n).
Proof. intros T n H. destruct n. exact H. Qed.

Lemma typed_kind : forall PE GE n t g st v st', plain n -> ofType t n -> t <> "" -> smallSizes n -> smallOptions (eOpts GE) ->
  accepted PE n g -> yields GE g st v st' ->
  v = JNull \/ jkind v = t \/ (jkind v = "number" /\ t = "integer").
Proof.
  intros PE GE n t g st v st' HP HT Ht HS HO HA HY.
  pose proof HA as HA0. apply (accepted_typed PE n g t) in HA; auto. destruct HA as (f & s & s' & H).
  unfold parseType in H.
  assert (NUM : forall b, parseNum n b s = Ok (Good g, s') -> jkind v = "number").
  { intros b X. unfold parseNum in X. destruct (parseNumber n b) as [[c|ng]|]; [| |apply bad_ok in X; tauto].
    - apply good_ok in X. destruct X as [-> _]. apply const_value in HY. subst v. reflexivity.
    - apply good_ok in X. destruct X as [-> _]. apply yields_step in HY. destruct HY as (k & HY). cbn [genStep] in HY.
      unfold genNumber in HY.
      assert (L : forall d s0, lift (numberGenerate ng d) s0 = Ok (v, st') -> jkind v = "number").
      { intros d s0 Y. unfold lift, numberGenerate, bind in Y. destruct (numberRaw ng d); try discriminate.
        apply (f_equal (fun r => match r with Ok (x, _) => jkind x | _ => "number" end)) in Y. cbn beta iota in Y. rewrite <- Y.
        unfold numberFinish. destruct (is_zero _), (nInt ng); try reflexivity; destruct (feqb _ _); reflexivity. }
      apply bindM_ok in HY. destruct HY as (u & s0 & _ & HY). destruct (numberDraws ng).
      + apply bindM_ok in HY. destruct HY as (d & s1 & _ & HY). eapply L; eauto.
      + eapply L; eauto. }
  destruct (String.eqb_spec t "object") as [->|].
  { destruct (object_facts PE GE n g st v st' HP HT HS HO HA0 HY) as [[-> _]|(m & -> & _)]; auto. }
  destruct (String.eqb_spec t "array") as [->|].
  { destruct (array_facts PE GE n g st v st' HP HT HS HO HA0 HY) as [[-> _]|F]; auto.
    destruct F as (f0 & tu & it & ad & ct & un & tv & cv & rv & F). cbv zeta in F. destruct F as (-> & _). auto. }
  destruct (String.eqb_spec t "number") as [->|]. { right. left. eapply NUM; eauto. }
  destruct (String.eqb_spec t "integer") as [->|]. { right. right. split; auto. eapply NUM; eauto. }
  destruct (String.eqb_spec t "string") as [->|].
  { right. left. apply parseString_shape in H. destruct H as (-> & _).
    apply yields_step in HY. destruct HY as (k & HY). cbn [genStep] in HY. unfold genString, generateFormat in HY.
    repeat first [apply bindM_ok in HY; destruct HY as (? & ? & _ & HY) | apply ret_ok in HY; destruct HY as [-> _]; reflexivity
      | match type of HY with (if ?b then _ else _) _ = _ => destruct b end ]. }
  destruct (String.eqb_spec t "boolean") as [->|].
  { right. left. apply good_ok in H. destruct H as [-> _]. apply yields_step in HY. destruct HY as (k & HY). cbn [genStep] in HY.
    apply bindM_ok in HY. destruct HY as (d & s0 & _ & HY). apply ret_ok in HY. destruct HY as [-> _]. reflexivity. }
  apply good_ok in H. destruct H as [-> _]. left. eapply null_value. eapply yields_made; eauto.
Qed.

(* a plain node whose value is an array / object / string: the node with that type made it *)
Lemma plain_kind : forall PE GE n g st v st', plain n -> smallSizes n -> smallOptions (eOpts GE) ->
  accepted PE n g -> yields GE g st v st' -> In (jkind v) ["array"; "object"; "string"; "boolean"] ->
  exists g' a b, accepted PE (withType (jkind v) n) g' /\ yields GE g' a v b /\ after st a /\ after b st'.
Proof.
  intros PE GE n g st v st' HP HS HO HA HY HK.
  destruct (plain_types _ _ _ _ _ _ _ HP HA HY) as [->|(t & Ht & g' & A' & a & b & Y' & P & Q)].
  { cbn in HK. intuition discriminate. }
  destruct (typed_kind PE GE (withType t n) t g' a v b (plain_type _ _ HP) (sType_set _ _) Ht (smallSizes_type _ _ HS) HO A' Y') as [->|[E|[E _]]].
  - cbn in HK. intuition discriminate.
  - rewrite E in *. exists g', a, b. auto.
  - rewrite E in HK. cbn in HK. intuition discriminate.
Qed.

(* ------------------------------------------------------------------ the value theorems for any plain node *)
Lemma any_string : forall PE GE n g st str st', plain n -> smallSizes n -> smallOptions (eOpts GE) -> sPattern n = None -> sFormat n = None ->
  sMaxLength n <> Some 0 -> accepted PE n g -> yields GE g st (JStr str) st' ->
  okRange (sMinLength n) (sMaxLength n) (Z.of_nat (String.length str)) /\
    ((forall d, isAscii (eSentence GE d)) -> okRange (sMinLength n) (sMaxLength n) (chars str)).
Proof.
  intros PE GE n g st str st' HP HS HO H1 H2 H3 HA HY.
  destruct (plain_kind _ _ _ _ _ _ _ HP HS HO HA HY) as (g' & a & b & A' & Y' & P & Q); [cbn; auto|]. cbn [jkind] in A'.
  destruct (string_lengths PE GE (withType "string" n) g' a (JStr str) b (plain_type _ _ HP) (sType_set _ _) H1 H2 H3 A' Y') as (x & E & R).
  injection E as <-. exact R.
Qed.
Lemma cutShort_not : forall GE st v, cutShort GE st v -> v <> JNull -> False.
Proof. intros GE st v [E _]. auto. Qed.
Lemma any_array_size : forall PE GE n g st l st', plain n -> smallSizes n -> smallOptions (eOpts GE) ->
  sMaxItems n <> Some 0 ->
  (forall d, sItems n = Some d -> get_or (itNodes d) [] = []) ->
  addlItemsFalse n = false ->
  (itemsFalse n = true -> get_or (sMinItems n) 0 <= prefixLength n) ->
  (forall m, sMaxItems n = Some m -> oDefaultArrayMinItems (eOpts GE) <= m) ->
  accepted PE n g -> yields GE g st (JArr l) st' -> okRange (sMinItems n) (sMaxItems n) (Z.of_nat (List.length l)).
Proof.
  intros PE GE n g st l st' HP HS HO H1 H2 H3 H4 H5 HA HY.
  destruct (plain_kind _ _ _ _ _ _ _ HP HS HO HA HY) as (g' & a & b & A' & Y' & P & Q); [cbn; auto|]. cbn [jkind] in A'.
  destruct (array_sizes PE GE (withType "array" n) g' a (JArr l) b (plain_type _ _ HP) (sType_set _ _) (smallSizes_type _ _ HS) HO H1 H2 H3 H4 H5 A' Y')
    as [C|(x & E & R)].
  - exfalso. eapply cutShort_not; eauto. discriminate.
  - injection E as <-. exact R.
Qed.
Lemma any_array_elements : forall PE GE n g st l st', plain n -> smallSizes n -> smallOptions (eOpts GE) ->
  accepted PE n g -> yields GE g st (JArr l) st' ->
  exists tv cv rv, l = (tv ++ cv ++ rv)%list /\
    Forall2 (fun c x => fromSchema PE GE c x st st') (positional n) tv /\
    match sContains n with
    | None => cv = []
    | Some c => exists c', containsFrom PE c n c' /\
        (itemsFalse n = false -> Z.of_nat (List.length cv) = minContainsOf n) /\
        (forall x, In x cv -> fromSchema PE GE c' x st st' \/
           (sUniqueItems n = Some true /\ x = JStr (uniqueWarning GE) /\ emitted EvUniqueFail st st'))
    end /\
    (forall x, In x rv ->
       match itemsNode n, addlItemsNode n, unevalNode n with
       | Some c, _, _ => fromSchema PE GE c x st st'
       | None, Some c, _ => fromSchema PE GE c x st st'
       | None, None, Some c => fromSchema PE GE c x st st'
       | None, None, None => if get_or (sUniqueItems n) false then exists s, x = JStr s else x = JNull
       end \/ (sUniqueItems n = Some true /\ x = JStr (uniqueWarning GE) /\ emitted EvUniqueFail st st')) /\
    (itemsFalse n = true -> cv = [] /\ rv = []).
Proof.
  intros PE GE n g st l st' HP HS HO HA HY.
  destruct (plain_kind _ _ _ _ _ _ _ HP HS HO HA HY) as (g' & a & b & A' & Y' & P & Q); [cbn; auto|]. cbn [jkind] in A'.
  assert (W : forall c x, fromSchema PE GE c x a b -> fromSchema PE GE c x st st') by (intros; eapply fromSchema_widen; eauto).
  assert (WE : forall e, emitted e a b -> emitted e st st') by (intros; eapply emitted_widen; eauto).
  destruct (array_elements PE GE (withType "array" n) g' a (JArr l) b (plain_type _ _ HP) (sType_set _ _) (smallSizes_type _ _ HS) HO A' Y')
    as [C|(tv & cv & rv & E & F1 & F2 & F3 & F4)].
  { exfalso. eapply cutShort_not; eauto. discriminate. }
  injection E as ->. exists tv, cv, rv. split; auto. split; [eapply Forall2_impl; [|exact F1]; auto|].
  change (sContains (withType "array" n)) with (sContains n) in F2.
  split; [|split].
  - destruct (sContains n) as [c|]; auto. destruct F2 as (c' & CF & L & F2). exists c'. split; auto. split; auto.
    intros x I. destruct (F2 x I) as [F|(U & X & EE)]; auto.
  - intros x I. specialize (F3 x I).
    change (itemsNode (withType "array" n)) with (itemsNode n) in F3. change (addlItemsNode (withType "array" n)) with (addlItemsNode n) in F3.
    change (unevalNode (withType "array" n)) with (unevalNode n) in F3. change (sUniqueItems (withType "array" n)) with (sUniqueItems n) in F3.
    destruct F3 as [F|(U & X & EE)]; [left|right; auto].
    destruct (itemsNode n); auto. destruct (addlItemsNode n); auto. destruct (unevalNode n); auto.
  - exact F4.
Qed.
Lemma any_array_differ : forall PE GE n g st l st', plain n -> smallSizes n -> smallOptions (eOpts GE) ->
  sUniqueItems n = Some true -> positional n = [] ->
  accepted PE n g -> yields GE g st (JArr l) st' -> emitted EvUniqueFail st st' \/ textsDiffer l.
Proof.
  intros PE GE n g st l st' HP HS HO H1 H2 HA HY.
  destruct (plain_kind _ _ _ _ _ _ _ HP HS HO HA HY) as (g' & a & b & A' & Y' & P & Q); [cbn; auto|]. cbn [jkind] in A'.
  destruct (array_differ PE GE (withType "array" n) g' a (JArr l) b (plain_type _ _ HP) (sType_set _ _) (smallSizes_type _ _ HS) HO H1 H2 A' Y')
    as [C|[E|(x & E & R)]].
  - exfalso. eapply cutShort_not; eauto. discriminate.
  - left. eapply emitted_widen; eauto.
  - injection E as <-. auto.
Qed.

Lemma any_object : forall PE GE n g st m st', plain n -> smallSizes n -> smallOptions (eOpts GE) ->
  accepted PE n g -> yields GE g st (JObj m) st' ->
  exists g' a b, accepted PE (withType "object" n) g' /\ yields GE g' a (JObj m) b /\ after st a /\ after b st' /\
    plain (withType "object" n) /\ ofType "object" (withType "object" n) /\ smallSizes (withType "object" n).
Proof.
  intros PE GE n g st m st' HP HS HO HA HY.
  destruct (plain_kind _ _ _ _ _ _ _ HP HS HO HA HY) as (g' & a & b & A' & Y' & P & Q); [cbn; auto|]. cbn [jkind] in A'.
  exists g', a, b. split; auto. split; auto. split; auto. split; auto. split; [apply plain_type; auto|]. split; [apply sType_set|apply smallSizes_type; auto].
Qed.
Lemma any_required : forall PE GE n g st m st', plain n -> smallSizes n -> smallOptions (eOpts GE) ->
  accepted PE n g -> yields GE g st (JObj m) st' -> forall k, In k (get_or (sRequired n) []) -> In k (keys m).
Proof.
  intros PE GE n g st m st' HP HS HO HA HY.
  destruct (any_object _ _ _ _ _ _ _ HP HS HO HA HY) as (g' & a & b & A' & Y' & _ & _ & P1 & P2 & P3).
  destruct (object_required _ _ _ _ _ _ _ P1 P2 P3 HO A' Y') as [C|(x & E & R)].
  - exfalso. eapply cutShort_not; eauto. discriminate.
  - injection E as <-. exact R.
Qed.
Lemma any_max : forall PE GE n g st m st', plain n -> smallSizes n -> smallOptions (eOpts GE) ->
  sMaxProperties n <> Some 0 -> (forall k, sMaxProperties n = Some k -> oDefaultObjectMinProperties (eOpts GE) <= k) ->
  accepted PE n g -> yields GE g st (JObj m) st' -> NoDup (keys m) /\ okRange None (sMaxProperties n) (Z.of_nat (List.length m)).
Proof.
  intros PE GE n g st m st' HP HS HO H1 H2 HA HY.
  destruct (any_object _ _ _ _ _ _ _ HP HS HO HA HY) as (g' & a & b & A' & Y' & _ & _ & P1 & P2 & P3).
  destruct (object_max _ _ _ _ _ _ _ P1 P2 P3 HO H1 H2 A' Y') as [C|(x & E & R)].
  - exfalso. eapply cutShort_not; eauto. discriminate.
  - injection E as <-. exact R.
Qed.
Lemma any_min : forall PE GE n g st m st', plain n -> smallSizes n -> smallOptions (eOpts GE) ->
  addlFalse n = false ->
  (forall k, In k (get_or (sRequired n) []) \/ In k (keys (get_or (sProperties n) [])) -> ~ fillerKey k) ->
  (forall re c e k, In (re, c) (get_or (sPatternProperties n) []) -> eRegen GE re e = Ok k -> ~ fillerKey k) ->
  accepted PE n g -> yields GE g st (JObj m) st' -> NoDup (keys m) /\ okRange (sMinProperties n) None (Z.of_nat (List.length m)).
Proof.
  intros PE GE n g st m st' HP HS HO H1 H2 H3 HA HY.
  destruct (any_object _ _ _ _ _ _ _ HP HS HO HA HY) as (g' & a & b & A' & Y' & _ & _ & P1 & P2 & P3).
  destruct (object_min _ _ _ _ _ _ _ P1 P2 P3 HO H1 H2 H3 A' Y') as [C|(x & E & R)].
  - exfalso. eapply cutShort_not; eauto. discriminate.
  - injection E as <-. exact R.
Qed.
Lemma any_keys : forall PE GE n g st m st', plain n -> smallSizes n -> smallOptions (eOpts GE) ->
  addlFalse n = true -> accepted PE n g -> yields GE g st (JObj m) st' -> forall k, In k (keys m) ->
    In k (keys (get_or (sProperties n) [])) \/ In k (get_or (sRequired n) []) \/
    exists re c, In (re, c) (get_or (sPatternProperties n) []) /\
      ((exists e, eRegen GE re e = Ok k) \/ (pxPropRegexOk PE re = false /\ k = "") \/ (exists i, 0 <= i /\ k = "min_filler_" ++ itoa i)).
Proof.
  intros PE GE n g st m st' HP HS HO H1 HA HY.
  destruct (any_object _ _ _ _ _ _ _ HP HS HO HA HY) as (g' & a & b & A' & Y' & _ & _ & P1 & P2 & P3).
  destruct (object_keys _ _ _ _ _ _ _ P1 P2 P3 HO H1 A' Y') as [C|(x & E & R)].
  - exfalso. eapply cutShort_not; eauto. discriminate.
  - injection E as <-. exact R.
Qed.
Lemma any_values : forall PE GE n g st m st', plain n -> smallSizes n -> smallOptions (eOpts GE) ->
  accepted PE n g -> yields GE g st (JObj m) st' -> forall k x c, assoc k m = Some x -> assoc k (get_or (sProperties n) []) = Some c ->
    (forall i, 0 <= i -> k <> "additional_" ++ itoa i /\ k <> "fallback_" ++ itoa i /\ k <> "min_filler_" ++ itoa i) ->
    (forall re p, In (re, p) (get_or (sPatternProperties n) []) -> (pxPropRegexOk PE re = true \/ k <> "") /\ forall e, eRegen GE re e <> Ok k) ->
    fromChild PE GE c x st st'.
Proof.
  intros PE GE n g st m st' HP HS HO HA HY k x c K1 K2 K3 K4.
  destruct (any_object _ _ _ _ _ _ _ HP HS HO HA HY) as (g' & a & b & A' & Y' & W1 & W2 & P1 & P2 & P3).
  destruct (object_values _ _ _ _ _ _ _ P1 P2 P3 HO A' Y') as [C|(x0 & E & R)].
  - exfalso. eapply cutShort_not; eauto. discriminate.
  - injection E as <-. eapply fromChild_widen; eauto.
Qed.
