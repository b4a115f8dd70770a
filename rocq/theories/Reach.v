(* Proofs behind P_Reach.v: what can come out under some random source. *)
From Coq Require Import ZArith List String Bool Lia Permutation.
From Verif Require Import Base Float64 Json Schema Util Rand Shuffle Options Number Gen GenFacts GenInv GenValues.
From Verif Require Import PState RefPath Merge NotMerge Parse PFacts ParseKeep SpecSchema SpecRun ParseShape ValueProps ConstrProps.
Import ListNotations.
Open Scope string_scope.
Open Scope Z_scope.

Lemma intn_small : forall n i, 0 <= i < n -> intn n i = Ok i.
Proof. intros n i H. unfold intn. destruct (Z.leb_spec n 0); [lia|]. rewrite Z.mod_small by lia. reflexivity. Qed.
Lemma wrap_id : forall z, - 2 ^ 63 <= z < 2 ^ 63 -> wrap64 z = z.
Proof. intros z H. unfold wrap64. rewrite Z.mod_small by lia. lia. Qed.
Lemma choice_pick : forall A (l : list A) x, In x l -> exists d, choice l d = Ok x.
Proof.
  intros A l x H. apply In_nth_error in H. destruct H as [i H]. assert (L : (i < List.length l)%nat) by (apply nth_error_Some; congruence).
  exists (Z.of_nat i). unfold choice. rewrite intn_small by lia. cbn [bind]. rewrite Nat2Z.id, H. reflexivity.
Qed.

(* ---- enum ---- *)
Lemma enum_reached : forall PE n l g fuel s s' v, flat n -> sEnum n = Some l -> parseNode PE fuel n s = Ok (Good g, s') ->
  assoc (scope s ++ normalisePath (pPath s ++ "/enum")) (pRes s) = None -> In v l -> pxValid PE n v = true ->
  exists d, forall GE st, eRand GE (gPos st) = d -> exists st', yields GE g st v st'.
Proof.
  intros PE n l g fuel s s' v HF HE HP HN HI HV.
  destruct l as [|x l]; [destruct HI|].
  apply parseNode_step in HP; [|apply HF]. destruct HP as (f & s1 & s2 & H & E1 & E2 & E3).
  eapply step_enum in H; eauto. apply parseEnum_shape in H. destruct H as (c & l0 & [C1 _] & L & H).
  rewrite E1, E2, E3 in C1.
  match type of C1 with context [assoc ?x _] => change x with (scope s ++ normalisePath (pPath s ++ "/enum")) in C1 end. rewrite HN in C1. cbn [get_or] in C1.
  assert (I : In v l0). { rewrite L. apply filter_In. rewrite HE. cbn [get_or]. split; [exact HI|congruence]. }
  destruct H as [(w & -> & ->)|(a & b & r & E & ->)].
  - destruct I as [<-|[]]. exists 0. intros GE st _. exists st, 1%nat. reflexivity.
  - destruct (choice_pick _ l0 v I) as (d & D). exists d. intros GE st X. eexists. exists 1%nat.
    cbn [generate genStep]. unfold bindM, tick, draw. cbn [gPos]. rewrite X, D. reflexivity.
Qed.

(* ---- boolean ---- *)
Lemma bool_reached : forall PE n g b, plain n -> ofType "boolean" n -> accepted PE n g ->
  exists d, forall GE st, eRand GE (gPos st) = d -> exists st', yields GE g st (JBool b) st'.
Proof.
  intros PE n g b HP HT HA. apply (accepted_typed PE n g "boolean") in HA; auto; [|discriminate]. destruct HA as (f & s & s' & H).
  cbn in H. apply good_ok in H. destruct H as [-> _]. exists (if b then 1 else 0). intros GE st X. eexists. exists 1%nat.
  cbn [generate genStep]. unfold bindM, draw. rewrite X. destruct b; reflexivity.
Qed.

(* ---- one of several generators ---- *)
Lemma pick_reached : forall (gs : list gen) g, In g gs -> Z.of_nat (List.length gs) < 2 ^ 60 -> exists d, forall GE f st, eRand GE (gPos st) = d ->
  genOneOf GE (generate GE f) gs st = generate GE f g (mkG (S (gPos st)) (gGlob st) (gCx st) (gStack st) (gLog st)).
Proof.
  intros gs g H B. apply In_nth_error in H. destruct H as [i H]. assert (L : (i < List.length gs)%nat) by (apply nth_error_Some; congruence).
  exists (Z.of_nat i). intros GE f st X. unfold genOneOf, drawInt. destruct (Z.eqb_spec 0 (Z.of_nat (List.length gs))); [lia|].
  unfold bindM, draw, randomInt. rewrite X. destruct (Z.eqb_spec 0 (Z.of_nat (List.length gs))); [lia|].
  rewrite (wrap_id (Z.of_nat (List.length gs) - 0)) by lia. rewrite intn_small by lia. cbn [bind lift]. rewrite wrap_id by lia.
  rewrite Z.add_0_r, Nat2Z.id, H. reflexivity.
Qed.

Lemma type_reached : forall PE n x ts g t, plain n -> sType n = Some (mkMT x (Some ts)) -> ~ In "" ts -> Z.of_nat (List.length ts) < 2 ^ 60 ->
  accepted PE n g -> In t ts ->
  exists d g', childOf PE (withType t n) g' /\ forall GE st v st', eRand GE (gPos st) = d ->
    yields GE g' (mkG (S (gPos st)) (gGlob st) (gCx st) (gStack st) (gLog st)) v st' -> yields GE g st v st'.
Proof.
  intros PE n x ts g t HP HT HN HB HA HI. pose proof (plain_supported _ _ _ HP HA) as HU.
  apply accepted_deep in HA; [|apply HP]. destruct HA as (f & s & s' & H & D).
  rewrite step_plain in H; auto. apply byType_multiple with (1 := HT) in H. destruct H as (gs & s1 & -> & H).
  apply types_children in H; auto.
  assert (X : exists g', In g' gs /\ childOf PE (withType t n) g').
  { clear -H HI. induction H; [destruct HI|]; destruct HI as [<-|HI]; [eexists; split; [left; reflexivity|auto]|].
    destruct (IHForall2 HI) as (g' & I & C). exists g'. split; [right; auto|auto]. }
  destruct X as (g' & I & C). assert (LN : List.length gs = List.length ts) by (clear -H; induction H; cbn; congruence).
  destruct (pick_reached gs g' I ltac:(rewrite LN; exact HB)) as (d & P). exists d, g'. split; auto.
  intros GE st v st' X (k & Y). exists (S k). cbn [generate genStep]. rewrite (P GE k st X). exact Y.
Qed.

Lemma anyOf_reached : forall PE n l g sub, sRef n = None -> sAllOf n = None -> sConstraints n = None -> Z.of_nat (List.length l) < 2 ^ 60 ->
  get_or (sOneOf n) [] = [] -> sAnyOf n = Some l -> accepted PE n g -> In sub l ->
  exists d g', branchOf PE false n sub g' /\ forall GE st, eRand GE (gPos st) = d -> shouldCutoff (eOpts GE) (gCx st + 1) = false ->
    exists st1, after st st1 /\ gLog st1 = gLog st /\ forall v st', yields GE g' st1 v st' -> yields GE g st v st'.
Proof.
  intros PE n l g sub R A C B O L HA HI. apply accepted_step in HA; auto. destruct HA as (f & s & s' & H).
  pose proof (step_supported _ _ _ _ _ _ H) as HU. unfold stepF, schemaStep in H. rewrite HU, R, A, L in H.
  rewrite orb_true_r in H. apply parseCombination_shape in H. rewrite O in H. destruct H as (gs & F & H).
  rewrite L in F. cbn [get_or] in F.
  assert (X : exists g', In g' gs /\ branchOf PE false n sub g').
  { clear -F HI. induction F; [destruct HI|]; destruct HI as [<-|HI]; [eexists; split; [left; reflexivity|auto]|].
    destruct (IHF HI) as (g' & I & K). exists g'. split; [right; auto|auto]. }
  destruct X as (g' & I & K). assert (LN : List.length gs = List.length l) by (clear -F; induction F; cbn; congruence).
  destruct H as [->|[-> _]].
  - destruct I as [->|[]]. exists 0, g'. split; auto. intros GE st _ _. exists st. split; [apply after_refl|]. auto.
  - destruct (pick_reached gs g' I ltac:(rewrite LN; exact B)) as (d & P). exists d, g'. split; auto.
    intros GE st X Cut. exists (mkG (S (gPos st)) (gGlob st) (gCx st + 1) (gStack st) (gLog st)).
    split; [unfold after; cbn; repeat split; try lia; exists []; reflexivity|]. split; [reflexivity|].
    intros v st' (k & Y). exists (S k). cbn [generate genStep]. unfold guarded, bindM, tick, cutoff, getCx. cbn [bindM gCx ret].
    unfold bindM, ret. cbn [gCx gPos gGlob gStack gLog]. rewrite Cut. rewrite (P GE k); [exact Y|exact X].
Qed.

(* ---- how many items ---- *)
Lemma itemsLoop_exact : forall GE G fuel i n mn g data s out s', i = Z.of_nat (List.length data) ->
  itemsLoop GE G fuel i n mn false g data s = Ok (out, s') -> Z.of_nat (List.length out) = Z.max i (Z.max n mn).
Proof.
  intros GE G. induction fuel as [|f IH]; intros i n mn g data s out s' Hi H; cbn [itemsLoop] in H; [discriminate|].
  destruct ((i <? n) || (Z.of_nat (List.length data) <? mn)) eqn:B.
  - stepM H. destruct a as [v ok]. cbn [genItem] in *. stepM H0. apply ret_ok in H0. destruct H0 as [H0 _]. injection H0 as -> ->. cbn [negb andb] in H.
    apply IH in H; [|rewrite app_length; cbn [List.length]; lia]. apply orb_true_iff in B. destruct B as [B|B]; apply Z.ltb_lt in B; lia.
  - apply ret_ok in H. destruct H as [-> _]. apply orb_false_iff in B. destruct B as [B1 B2]. apply Z.ltb_ge in B1, B2. lia.
Qed.

(* an array of items only: what its size is made of *)
Lemma items_array : forall PE n a b g, plain n -> ofType "array" n -> sMinItems n = Some a -> sMaxItems n = Some b -> 0 < a <= b -> b < 2 ^ 60 ->
  tupleNodes n = [] -> get_or (sPrefixItems n) [] = [] -> sContains n = None -> get_or (sMinContains n) 0 = 0 -> itemsFalse n = false -> addlItemsFalse n = false -> unevalFalse n = false ->
  accepted PE n g -> exists it ad un, g = GArray [] it ad None un (mkArr false (get_or (sUniqueItems n) false) 0 a b false).
Proof.
  intros PE n a b g HP HT Ha Hb Hab Hs T P C M I A U HA. apply array_shape in HA; auto. destruct HA as (f & s & s' & H).
  apply parseArray_shape in H. cbv zeta in H. destruct H as (tu & it & ad & ct & un & -> & F1 & F2 & F3 & F4 & F5 & _).
  rewrite T in F1. inversion F1; subst. rewrite C in F5. subst ct. exists it, ad, un.
  assert (MC : minContainsOf n = 0) by (unfold minContainsOf; rewrite C, M; reflexivity).
  rewrite I, A, U, Ha, Hb, MC. cbn [orb get_or]. unfold getInt. destruct (Z.eqb_spec a 0); [lia|]. destruct (Z.eqb_spec b 0); [lia|]. reflexivity.
Qed.

Lemma length_reached : forall PE n a b g k, plain n -> ofType "array" n -> sMinItems n = Some a -> sMaxItems n = Some b -> 0 < a -> b < 2 ^ 60 ->
  tupleNodes n = [] -> get_or (sPrefixItems n) [] = [] -> sContains n = None -> get_or (sMinContains n) 0 = 0 -> itemsFalse n = false -> addlItemsFalse n = false -> unevalFalse n = false ->
  get_or (sUniqueItems n) false = false -> accepted PE n g -> a <= k < b ->
  exists d, forall GE st v st', eRand GE (gPos st) = d -> shouldCutoff (eOpts GE) (gCx st + 1) = false -> shouldMinimize (eOpts GE) (gCx st + 1) = false ->
    yields GE g st v st' -> exists l, v = JArr l /\ Z.of_nat (List.length l) = k.
Proof.
  intros PE n a b g k HP HT Ha Hb Pa Pb T P C M I A U Q HA Hk.
  destruct (items_array PE n a b g HP HT Ha Hb ltac:(lia) Pb T P C M I A U HA) as (it & ad & un & ->). rewrite Q.
  exists k. intros GE st v st' X Cut Min Y. apply yields_step in Y. destruct Y as (f & Y). cbn [genStep] in Y.
  unfold genArray, guarded in Y. stepM Y. unfold tick in Y0. injection Y0 as <- <-. stepM Y. unfold cutoff, getCx, bindM, ret in Y0. cbn [gCx] in Y0. rewrite Cut in Y0. injection Y0 as <- <-.
  stepM Y. cbn [genAll] in Y0. apply ret_ok in Y0. destruct Y0 as [-> ->]. cbn [aDisallowAdditional aMinItems aMaxItems aMinContains aUnique aDisallowUnevaluated] in Y. cbv zeta in Y.
  stepM Y. apply ret_ok in Y0. destruct Y0 as [-> ->]. cbn [List.length Z.of_nat] in Y.
  assert (G1 : forall x y, x <> 0 -> getInt x y = x) by (intros x y Hx; unfold getInt; destruct (Z.eqb_spec x 0); [contradiction|reflexivity]).
  rewrite !G1 in Y by lia. destruct (Z.ltb_spec b a); [lia|]. stepM Y.
  assert (D : a0 = k /\ s = mkG (S (gPos st)) (gGlob st) (gCx st + 1) (gStack st) (gLog st)).
  { unfold maxInt2 in Y0. destruct (Z.ltb_spec 0 (b - (0 + 0))); [|lia]. unfold drawInt in Y0. destruct (Z.eqb_spec 0 (b - (0 + 0))); [lia|].
    unfold bindM, draw, randomInt in Y0. cbn [gPos] in Y0. rewrite X in Y0. destruct (Z.eqb_spec 0 (b - (0 + 0))); [lia|].
    rewrite (wrap_id (b - (0 + 0) - 0)) in Y0 by lia. rewrite intn_small in Y0 by lia. cbn [bind lift] in Y0. rewrite wrap_id in Y0 by lia.
    rewrite Z.add_0_r in Y0. injection Y0 as <- <-. split; reflexivity. }
  destruct D as [-> ->]. clear Y0. stepM Y. unfold minimize, getCx, bindM, ret in Y0. cbn [gCx] in Y0. injection Y0 as <- <-. rewrite Min in Y. cbn [orb] in Y.
  stepM Y. apply ret_ok in Y. destruct Y as [-> _]. exists a0. split; [reflexivity|].
  apply itemsLoop_exact in Y0; [|reflexivity]. lia.
Qed.

(* the largest size never comes out *)
Lemma longest_missed : forall PE GE n a b g st l st', plain n -> ofType "array" n -> sMinItems n = Some a -> sMaxItems n = Some b -> 0 < a < b -> b < 2 ^ 60 ->
  tupleNodes n = [] -> get_or (sPrefixItems n) [] = [] -> sContains n = None -> get_or (sMinContains n) 0 = 0 -> itemsFalse n = false -> addlItemsFalse n = false -> unevalFalse n = false ->
  accepted PE n g -> yields GE g st (JArr l) st' -> Z.of_nat (List.length l) < b.
Proof.
  intros PE GE n a b g st l st' HP HT Ha Hb Pa Pb T P C M I A U HA Y.
  destruct (items_array PE n a b g HP HT Ha Hb ltac:(lia) Pb T P C M I A U HA) as (it & ad & un & ->).
  apply yields_step in Y. destruct Y as (f & Y). cbn [genStep] in Y.
  unfold genArray, guarded in Y. stepM Y. stepM Y. destruct a1; [stepM Y; apply ret_ok in Y; destruct Y as [Y _]; discriminate Y|].
  stepM Y. cbn [genAll] in Y2. apply ret_ok in Y2. destruct Y2 as [-> ->]. cbn [aDisallowAdditional aMinItems aMaxItems aMinContains aUnique aDisallowUnevaluated] in Y. cbv zeta in Y.
  stepM Y. apply ret_ok in Y2. destruct Y2 as [-> ->]. cbn [List.length Z.of_nat] in Y.
  assert (G1 : forall x y, x <> 0 -> getInt x y = x) by (intros x y Hx; unfold getInt; destruct (Z.eqb_spec x 0); [contradiction|reflexivity]).
  rewrite !G1 in Y by lia. destruct (Z.ltb_spec b a); [lia|]. stepM Y.
  assert (D : 0 <= a1 < b).
  { replace (b - (0 + 0)) with b in * by lia. unfold maxInt2 in Y2. destruct (Z.ltb_spec 0 b); [|lia]. unfold drawInt in Y2. destruct (Z.eqb_spec 0 (b)); [lia|].
    stepM Y2. apply lift_ok in Y2. destruct Y2 as [Y2 _]. unfold randomInt in Y2. destruct (Z.eqb_spec 0 (b)); [lia|].
    rewrite (wrap_id (b - 0)) in Y2 by lia. unfold intn in Y2. destruct (Z.leb_spec (b - 0) 0); [lia|]. cbn [bind] in Y2.
    pose proof (Z.mod_pos_bound a2 (b - 0) ltac:(lia)). rewrite wrap_id in Y2 by lia. injection Y2 as Y2. lia. }
  stepM Y. stepM Y. apply ret_ok in Y. destruct Y as [Y _]. injection Y as ->.
  apply (itemsLoop_ok GE (generate GE f) (fwd_generate GE f)) in Y4; [|lia|cbn; lia]. destruct Y4 as (r & -> & _ & _ & L). cbn [app List.length] in *.
  destruct (false || a2); lia.
Qed.

(* ---- which optional properties ---- *)
Lemma massign_new : forall A k (v : A) m, ~ In k (keys m) -> keys (massign k v m) = (keys m ++ [k])%list.
Proof.
  induction m as [|[k' v'] r IH]; intros H; [reflexivity|]. cbn [massign]. destruct (String.eqb_spec k k') as [->|N]; [elim H; left; reflexivity|].
  cbn [keys map fst app]. f_equal. apply IH. intros I. apply H. right. exact I.
Qed.
Lemma genKeys_keys : forall GE G prx props ks m s m' s', NoDup (keys m ++ ks) -> genKeys GE G prx props ks m s = Ok (m', s') -> keys m' = (keys m ++ ks)%list.
Proof.
  intros GE G prx props. induction ks as [|k ks IH]; intros m s m' s' N H; cbn [genKeys] in H.
  - apply ret_ok in H. destruct H as [-> _]. rewrite app_nil_r. reflexivity.
  - stepM H. assert (K : ~ In k (keys m)) by (apply NoDup_remove_2 in N; intros X; apply N; apply in_or_app; auto).
    apply IH in H; rewrite massign_new in * by exact K; rewrite <- app_assoc in *; [exact H|exact N].
Qed.
Lemma uniqString_NoDup : forall l, NoDup (uniqString l).
Proof.
  intros l. unfold uniqString. generalize (@nil string) as seen. induction l as [|x r IH]; intros seen; cbn [uniqString_loop]; [constructor|].
  destruct (mem_string x seen); [apply IH|]. constructor; [|apply IH]. intros H. apply uniqString_loop_In in H. apply (proj2 H). left. reflexivity.
Qed.
Lemma sub_permutes : forall (c l : list string), NoDup c -> NoDup l -> incl c l -> exists rest, Permutation (c ++ rest) l.
Proof.
  intros c. induction c as [|x c IH]; intros l Nc Nl I.
  - exists l. apply Permutation_refl.
  - inversion Nc; subst. assert (Ix : In x l) by (apply I; left; reflexivity). apply in_split in Ix. destruct Ix as (l1 & l2 & ->).
    pose proof (NoDup_remove_1 _ _ _ Nl) as Nl'. pose proof (NoDup_remove_2 _ _ _ Nl) as Nx.
    destruct (IH (l1 ++ l2)%list H2 Nl') as (rest & P).
    { intros y Hy. specialize (I y (or_intror Hy)). apply in_app_or in I. apply in_or_app. destruct I as [I|[->|I]]; auto. contradiction. }
    exists rest. cbn [app]. eapply Permutation_trans; [apply perm_skip; exact P|]. apply Permutation_middle.
Qed.

Lemma object_shape : forall PE n g, plain n -> ofType "object" n -> accepted PE n g ->
  exists f s s', parseObject PE (parseF PE f false) n s = Ok (Good g, s').
Proof.
  intros PE n g HP HT HA. apply (accepted_typed PE n g "object") in HA; auto. discriminate.
Qed.

Lemma subset_reached : forall PE n o mn mx g chosen, plain n -> ofType "object" n -> get_or (sRequired n) [] = [] -> get_or (sPatternProperties n) [] = [] -> addlFalse n = true ->
  mn = getInt (get_or (sMinProperties n) 0) (oDefaultObjectMinProperties o) -> sMaxProperties n = Some mx -> 0 <= mn -> 0 < mx < 2 ^ 60 ->
  accepted PE n g -> NoDup chosen -> incl chosen (keys (get_or (sProperties n) [])) ->
  mn <= Z.of_nat (List.length chosen) < mx ->
  exists d draws, forall GE st v st', eOpts GE = o -> eRand GE (gPos st) = d -> (forall i, eGlob GE (gGlob st + i) = draws i) ->
    shouldCutoff o (gCx st + 1) = false -> shouldMinimize o (gCx st + 1) = false ->
    yields GE g st v st' -> exists m, v = JObj m /\ keys m = chosen.
Proof.
  intros PE n o mn mx g chosen HP HT R Pt Ad Emn Hmx Pmn Pmx HA ND IN B. apply object_shape in HA; auto. destruct HA as (f & s & s' & H).
  apply parseObject_shape in H. destruct H as (ps & pats & add & -> & F1 & F2 & _). rewrite R, Pt, Ad, Hmx in *. inversion F2; subst pats. cbn [get_or].
  assert (KS : keys ps = keys (get_or (sProperties n) [])).
  { clear -F1. unfold keys. induction F1 as [|? ? ? ? [E _]]; cbn [map]; [reflexivity|]. rewrite E. f_equal. exact IHF1. }
  destruct (sub_permutes chosen (uniqString (keys ps)) ND (uniqString_NoDup _)) as (rest & P).
  { intros x Hx. apply uniqString_In. rewrite KS. apply IN. exact Hx. }
  destruct (shuffle_onto _ "" (uniqString (keys ps)) _ P) as (ds & E & _).
  pose proof (Permutation_length P) as LP. rewrite app_length in LP.
  exists (Z.of_nat (List.length chosen) - mn), ds. intros GE st v st' EO X XG Cut Min Y. rewrite <- EO in *.
  apply yields_step in Y. destruct Y as (k & Y). cbn [genStep] in Y. unfold genObject, guarded in Y.
  stepM Y. unfold tick in Y0. injection Y0 as <- <-. stepM Y. unfold cutoff, getCx, bindM, ret in Y0. cbn [gCx] in Y0. rewrite Cut in Y0. injection Y0 as <- <-.
  cbn [bRequired bMinProperties bMaxProperties bDisallowAdditional] in Y.
  stepM Y. cbn [genKeys] in Y0. apply ret_ok in Y0. destruct Y0 as [-> ->]. cbn [app List.length Z.of_nat] in Y. cbv zeta in Y.
  rewrite <- Emn in Y. assert (G1 : getInt mx (oDefaultObjectMaxProperties (eOpts GE)) = mx) by (unfold getInt; destruct (Z.eqb_spec mx 0); [lia|reflexivity]).
  rewrite G1 in Y. destruct (Z.ltb_spec mx mn); [lia|]. rewrite !Z.sub_0_r in Y.
  assert (M1 : maxInt2 0 mn = mn) by (unfold maxInt2; destruct (Z.ltb_spec 0 mn); lia). assert (M2 : maxInt2 0 mx = mx) by (unfold maxInt2; destruct (Z.ltb_spec 0 mx); lia).
  rewrite M1, M2 in Y. stepM Y.
  assert (D : a = Z.of_nat (List.length chosen) /\ s0 = mkG (S (gPos st)) (gGlob st) (gCx st + 1) (gStack st) (gLog st)).
  { unfold drawInt in Y0. destruct (Z.eqb_spec mn mx); [lia|]. unfold bindM, draw, randomInt in Y0. cbn [gPos] in Y0. rewrite X in Y0.
    destruct (Z.eqb_spec mn mx); [lia|]. rewrite (wrap_id (mx - mn)) in Y0 by lia. rewrite intn_small in Y0 by lia. cbn [bind lift] in Y0.
    rewrite wrap_id in Y0 by lia. injection Y0 as <- <-. split; [lia|reflexivity]. }
  destruct D as [-> ->]. clear Y0. stepM Y. unfold minimize, getCx, bindM, ret in Y0. cbn [gCx] in Y0. injection Y0 as <- <-. rewrite Min in Y.
  stepM Y. assert (MI : minInt2 (Z.of_nat (List.length (uniqString (keys ps)))) (Z.of_nat (List.length chosen)) = Z.of_nat (List.length chosen)).
  { unfold minInt2. destruct (Z.ltb_spec (Z.of_nat (List.length chosen)) (Z.of_nat (List.length (uniqString (keys ps))))); lia. }
  change (map fst ps) with (keys ps) in *. rewrite MI in Y0.
  assert (PK : a = chosen).
  { unfold stringChoiceMultiple, bindM, globDraws in Y0. cbn [gGlob gPos gCx gStack gLog] in Y0.
    destruct (Z.ltb_spec (Z.of_nat (List.length chosen)) 0); [lia|]. destruct (Z.ltb_spec (Z.of_nat (List.length (uniqString (keys ps)))) (Z.of_nat (List.length chosen))); [lia|].
    cbn [orb] in Y0. unfold ret in Y0. rewrite Nat2Z.id in Y0. injection Y0 as <- _.
    transitivity (firstn (List.length chosen) (shuffle "" (uniqString (keys ps)) ds)).
    - f_equal. unfold shuffle. f_equal. apply perm_ext. intros i Hi. unfold nthDraw.
      rewrite (nth_indep _ 0 (eGlob GE (gGlob st + 0)%nat)) by (rewrite map_length, seq_length; exact Hi).
      rewrite (map_nth (fun i => eGlob GE (gGlob st + i)%nat)), seq_nth by exact Hi. rewrite XG. reflexivity.
    - rewrite E, firstn_app, Nat.sub_diag, firstn_all. cbn [firstn]. apply app_nil_r. }
  subst a. stepM Y. apply genKeys_keys in Y1; [|exact ND]. cbn [keys map app] in Y1. apply ret_ok in Y. destruct Y as [-> _]. exists a. split; [reflexivity|exact Y1].
Qed.

(* and never as many as maxProperties *)
Lemma fullest_missed : forall PE GE n mx g st m st', plain n -> ofType "object" n -> get_or (sRequired n) [] = [] -> get_or (sPatternProperties n) [] = [] -> addlFalse n = true ->
  sMaxProperties n = Some mx -> 0 <= getInt (get_or (sMinProperties n) 0) (oDefaultObjectMinProperties (eOpts GE)) < mx -> mx < 2 ^ 60 ->
  accepted PE n g -> yields GE g st (JObj m) st' -> Z.of_nat (List.length m) < mx.
Proof.
  intros PE GE n mx g st m st' HP HT R Pt Ad Hmx Pmn Pmx HA Y. apply object_shape in HA; auto. destruct HA as (f & s & s' & H).
  apply parseObject_shape in H. destruct H as (ps & pats & add & -> & F1 & F2 & _). rewrite R, Pt, Ad, Hmx in *. inversion F2; subst pats. cbn [get_or] in *.
  set (mn := getInt (get_or (sMinProperties n) 0) (oDefaultObjectMinProperties (eOpts GE))) in *.
  apply yields_step in Y. destruct Y as (k & Y). cbn [genStep] in Y. unfold genObject, guarded in Y.
  stepM Y. stepM Y. destruct a0; [stepM Y; apply ret_ok in Y; destruct Y as [Y _]; discriminate Y|].
  cbn [bRequired bMinProperties bMaxProperties bDisallowAdditional] in Y.
  stepM Y. cbn [genKeys] in Y2. apply ret_ok in Y2. destruct Y2 as [-> ->]. cbn [app List.length Z.of_nat] in Y. cbv zeta in Y. fold mn in Y.
  assert (G1 : getInt mx (oDefaultObjectMaxProperties (eOpts GE)) = mx) by (unfold getInt; destruct (Z.eqb_spec mx 0); [lia|reflexivity]).
  rewrite G1 in Y. destruct (Z.ltb_spec mx mn); [lia|]. rewrite !Z.sub_0_r in Y.
  assert (M1 : maxInt2 0 mn = mn) by (unfold maxInt2; destruct (Z.ltb_spec 0 mn); lia). assert (M2 : maxInt2 0 mx = mx) by (unfold maxInt2; destruct (Z.ltb_spec 0 mx); lia).
  rewrite M1, M2 in Y. stepM Y.
  assert (D : mn <= a0 < mx).
  { unfold drawInt in Y2. destruct (Z.eqb_spec mn mx); [lia|]. stepM Y2. apply lift_ok in Y2. destruct Y2 as [Y2 _]. unfold randomInt in Y2.
    destruct (Z.eqb_spec mn mx); [lia|]. rewrite (wrap_id (mx - mn)) in Y2 by lia. unfold intn in Y2. destruct (Z.leb_spec (mx - mn) 0); [lia|]. cbn [bind] in Y2.
    pose proof (Z.mod_pos_bound a1 (mx - mn) ltac:(lia)). rewrite wrap_id in Y2 by lia. injection Y2 as <-. lia. }
  stepM Y. set (tg := if a1 then mn else a0) in *. assert (T : mn <= tg < mx) by (unfold tg; destruct a1; lia).
  stepM Y. unfold stringChoiceMultiple in Y4. stepM Y4.
  match type of Y4 with (if ?c then _ else _) _ = _ => destruct c; [discriminate Y4|] end. apply ret_ok in Y4. destruct Y4 as [-> _].
  stepM Y. apply ret_ok in Y. destruct Y as [Y _]. injection Y as ->.
  assert (L : forall ks m0 s0 m1 s1, genKeys GE (generate GE k) "optional" ps ks m0 s0 = Ok (m1, s1) -> (List.length m1 <= List.length m0 + List.length ks)%nat).
  { induction ks as [|x ks IH]; intros m0 s0' m1 s1' Q; cbn [genKeys] in Q.
    - apply ret_ok in Q. destruct Q as [-> _]. cbn. lia.
    - stepM Q. apply IH in Q. pose proof (massign_length_le _ x a4 m0). cbn [List.length]. lia. }
  apply L in Y4. rewrite firstn_length, shuffle_length in Y4. cbn [List.length] in Y4. unfold minInt2 in Y4.
  match type of Y4 with context [if ?c then _ else _] => destruct c eqn:EC end; [apply Z.ltb_lt in EC|apply Z.ltb_ge in EC]; lia.
Qed.
