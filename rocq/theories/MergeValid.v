(* Values valid against the merged node are valid against every merged schema, for schemas that can be
   merged (SpecMerge.v). *)
From Coq Require Import ZArith Reals List String Bool Lia Lra Permutation.
From Flocq Require Import Core BinarySingleNaN.
From Verif Require Import Base Float64 Json Schema Util Number Gen Codec PState PFacts RefPath Merge NotMerge Parse ParseKeep FloatFacts SpecNumber SpecSchema MergeFacts MergeProps JEq SpecMerge.
Import ListNotations.
Open Scope string_scope.
Open Scope Z_scope.

(* ------------------------------------------------------------------ lists *)
Lemma concatMap_app : forall A B (f : A -> list B) l l', concatMap f (l ++ l') = (concatMap f l ++ concatMap f l')%list.
Proof. induction l; intros; simpl; auto. rewrite IHl, app_assoc. reflexivity. Qed.
Lemma concatMap_In : forall A B (f : A -> list B) l y, In y (concatMap f l) <-> exists x, In x l /\ In y (f x).
Proof.
  induction l; simpl; intros y; [split; [tauto|intros (? & [] & _)]|]. rewrite in_app_iff, IHl. split.
  - intros [H|(x & H1 & H2)]; eauto.
  - intros (x & [<-|H] & H2); eauto.
Qed.
Lemma concatMap_perm : forall A B (f : A -> list B) l l', Permutation l l' -> Permutation (concatMap f l) (concatMap f l').
Proof.
  induction 1; simpl; auto.
  - apply Permutation_app_head; auto.
  - rewrite !app_assoc. apply Permutation_app_tail, Permutation_app_comm.
  - eapply Permutation_trans; eauto.
Qed.
Lemma pairs_perm : forall A (R : A -> A -> Prop) l l', (forall x y, R x y -> R y x) -> Permutation l l' -> ForallOrdPairs R l -> ForallOrdPairs R l'.
Proof.
  intros A R l l' Hs. induction 1; intros H1; auto.
  - inversion H1; subst. constructor; auto. rewrite Forall_forall in *. intros y Hy. apply H3. eapply Permutation_in; [apply Permutation_sym; eauto|auto].
  - inversion H1; subst. inversion H3; subst. inversion H2; subst. constructor; [constructor; auto|constructor; auto].
Qed.

(* ------------------------------------------------------------------ valid, keyword by keyword *)
Section V.
Variable matches : string -> string -> Prop.
Variable formatted : string -> string -> Prop.
Variable refers : string -> json -> Prop.
Notation valid := (valid matches formatted refers).

Lemma every_In : forall A (f : A -> Prop) l, every f l <-> forall x, In x l -> f x.
Proof. induction l; simpl; [tauto|]. rewrite IHl. split; [intros [? ?] x [<-|]; auto|intros H; split; auto]. Qed.
Lemma everyMember_In : forall A (f : string -> A -> Prop) l, everyMember f l <-> forall k c, In (k, c) l -> f k c.
Proof.
  induction l as [|[k x] r IH]; simpl; [tauto|]. rewrite IH. split.
  - intros [H1 H2] k' c [E|I]; auto. inversion E; subst; auto.
  - intros H. split; auto.
Qed.
Lemma positions_nth : forall A (f : A -> json -> Prop) l vs, positions f l vs <-> forall i c v, nth_error l i = Some c -> nth_error vs i = Some v -> f c v.
Proof.
  induction l as [|a r IH]; intros [|v t]; simpl; split; auto; try (intros _ [|i] c w; simpl; discriminate).
  - intros [H1 H2] [|i] c w; simpl; intros E1 E2; [inversion E1; inversion E2; subst; auto|]. eapply IH; eauto.
  - intros H. split; [apply (H O); auto|]. apply IH. intros i c w. apply (H (S i)).
Qed.

(* the object part, the array part and the combinations, by the fields *)
Definition objectPart (n : schemaNode) (v : json) : Prop := forall m, v = JObj m ->
  (forall k c x, In (k, c) (get_or (sProperties n) []) -> assoc k m = Some x -> valid c x) /\
  (forall p c k x, In (p, c) (get_or (sPatternProperties n) []) -> assoc k m = Some x -> matches p k -> valid c x) /\
  (forall d k x, sAdditionalProperties n = Some d -> assoc k m = Some x -> ~ In k (keys (get_or (sProperties n) [])) ->
     (forall p, In p (keys (get_or (sPatternProperties n) [])) -> ~ matches p k) ->
     nofFalse d = false /\ forall c, nofSchema d = Some c -> valid c x).
Definition arrayPart (n : schemaNode) (v : json) : Prop := forall l, v = JArr l ->
  (forall i c x, nth_error (get_or (sPrefixItems n) []) i = Some c -> nth_error l i = Some x -> valid c x) /\
  (forall d c x, sItems n = Some d -> itNode d = Some c -> In x (skipn (List.length (get_or (sPrefixItems n) [])) l) -> valid c x) /\
  (forall c, sContains n = Some c -> atLeast (valid c) (get_or (sMinContains n) 1) l).
Definition choicePart (n : schemaNode) (v : json) : Prop :=
  present (some (fun c => valid c v)) (sAnyOf n) /\ present (exactlyOne (fun c => valid c v)) (sOneOf n) /\
  present (fun c => ~ valid c v) (sNot n).

Lemma valid_eq : forall n v, valid n v <->
  okFlat matches formatted n v /\
  (forall m, v = JObj m ->
     present (everyMember (fun k c => forall x, assoc k m = Some x -> valid c x)) (sProperties n) /\
     present (everyMember (fun p c => forall k x, assoc k m = Some x -> matches p k -> valid c x)) (sPatternProperties n) /\
     present (fun d => forall k x, assoc k m = Some x -> ~ In k (keys (get_or (sProperties n) [])) ->
                (forall p, In p (keys (get_or (sPatternProperties n) [])) -> ~ matches p k) ->
                nofFalse d = false /\ present (fun c => valid c x) (nofSchema d)) (sAdditionalProperties n)) /\
  (forall l, v = JArr l ->
     present (fun ns => positions valid ns l) (sPrefixItems n) /\
     present (fun d =>
       (sPrefixItems n = None -> present (fun ns => positions valid ns l) (itNodes d)) /\
       (itDisallow d = true -> skipn (tupleLength (sPrefixItems n) (sItems n)) l = []) /\
       present (fun c => forall x, In x (skipn (tupleLength (sPrefixItems n) (sItems n)) l) -> valid c x) (itNode d)) (sItems n) /\
     present (fun d => present (fun it => itNode it = None \/ get_or (itNodes it) [] <> []) (sItems n) ->
       (nofFalse d = true -> skipn (tupleLength (sPrefixItems n) (sItems n)) l = []) /\
       present (fun c => forall x, In x (skipn (tupleLength (sPrefixItems n) (sItems n)) l) -> valid c x) (nofSchema d)) (sAdditionalItems n) /\
     present (fun c => atLeast (valid c) (get_or (sMinContains n) 1) l /\
                       forall k, sMaxContains n = Some k -> ~ atLeast (valid c) (k + 1) l) (sContains n)) /\
  present (every (fun c => valid c v)) (sAllOf n) /\
  present (some (fun c => valid c v)) (sAnyOf n) /\
  present (exactlyOne (fun c => valid c v)) (sOneOf n) /\
  present (fun c => ~ valid c v) (sNot n) /\
  present (fun c => (valid c v -> present (fun t => valid t v) (sThen n)) /\ (~ valid c v -> present (fun t => valid t v) (sElse n))) (sIf n) /\
  present (fun r => refers r v) (sRef n).
Proof. intros n v. destruct n. split; intros H; exact H. Qed.

Lemma valid_parts : forall n v, single n -> sAllOf n = None ->
  (valid n v <-> okFlat matches formatted n v /\ objectPart n v /\ arrayPart n v /\ choicePart n v).
Proof.
  intros n v S A. unfold objectPart, arrayPart, choicePart.
  pose proof (siRef _ S) as Sr. destruct S as [_ _ _ _ _ _ _ Si Sa _ Sm _ _ [Sf _] _ _ _].
  rewrite valid_eq, A, Sf, Sa, Sr. cbn [present].
  generalize (okFlat matches formatted n v). intros Fl.
  split.
  - intros (F & O & R & _ & C1 & C2 & C3 & _). split; [exact F|]. split; [|split; [|auto]].
    + intros m Hm. destruct (O m Hm) as (O1 & O2 & O3). split; [|split].
      * intros k c x I. destruct (sProperties n); [|destruct I]. cbn in I, O1. rewrite everyMember_In in O1. apply (O1 _ _ I).
      * intros p c k x I. destruct (sPatternProperties n); [|destruct I]. cbn in I, O2. rewrite everyMember_In in O2. apply (O2 _ _ I).
      * intros d k x Ed A1 A2 A3. rewrite Ed in O3. cbn in O3. destruct (O3 k x A1 A2 A3) as [B1 B2]. split; auto.
        intros c Ec. rewrite Ec in B2. exact B2.
    + intros l Hl. destruct (R l Hl) as (R1 & R2 & _ & R4). split; [|split].
      * intros i c x I. destruct (sPrefixItems n); [|destruct i; discriminate I]. cbn in I, R1. rewrite positions_nth in R1. eauto.
      * intros d c x Ed Ec. rewrite Ed in R2. cbn in R2. destruct (Si _ Ed) as (_ & I2 & _). destruct R2 as (_ & _ & R2). rewrite Ec in R2. cbn in R2.
        intros I. apply R2. unfold tupleLength. rewrite I2. destruct (sPrefixItems n); exact I.
      * intros c Ec. rewrite Ec in R4. cbn in R4. tauto.
  - intros (F & O & R & C1 & C2 & C3). split; [exact F|]. split; [|split; [|auto 10]].
    + intros m Hm. destruct (O m Hm) as (O1 & O2 & O3). split; [|split].
      * destruct (sProperties n); [|exact Logic.I]. cbn. rewrite everyMember_In. intros k c I x. apply (O1 _ _ _ I).
      * destruct (sPatternProperties n); [|exact Logic.I]. cbn. rewrite everyMember_In. intros k c I k' x. apply (O2 _ _ _ _ I).
      * destruct (sAdditionalProperties n) as [d|]; [|exact Logic.I]. cbn. intros k x A1 A2 A3. destruct (O3 d k x eq_refl A1 A2 A3) as [B1 B2]. split; auto.
        destruct (nofSchema d); [|exact Logic.I]. cbn. auto.
    + intros l Hl. destruct (R l Hl) as (R1 & R2 & R4). split; [|split; [|split]].
      * destruct (sPrefixItems n); [|exact Logic.I]. cbn. rewrite positions_nth. intros i c x. apply R1.
      * destruct (sItems n) as [d|]; [|exact Logic.I]. cbn. destruct (Si _ eq_refl) as (_ & I2 & I3). split; [|split].
        -- rewrite I2. intros _. exact Logic.I.
        -- rewrite I3. discriminate.
        -- destruct (itNode d) as [c|] eqn:Ec; [|exact Logic.I]. cbn. intros x I. apply (R2 d c x eq_refl Ec). unfold tupleLength in I. rewrite I2 in I. destruct (sPrefixItems n); exact I.
      * exact Logic.I.
      * destruct (sContains n); [|exact Logic.I]. cbn. split; [auto|]. rewrite Sm. discriminate.
Qed.

(* valid, conjunct by conjunct *)
Lemma conjuncts_eq : forall n, conjuncts n = set_sAllOf None n :: concatMap conjuncts (branches n).
Proof. intros n. destruct n. unfold branches. cbn. destruct sAllOf; reflexivity. Qed.
Lemma valid_allOf : forall n v, valid n v <-> valid (set_sAllOf None n) v /\ forall b, In b (branches n) -> valid b v.
Proof.
  intros n v. rewrite (valid_eq n), (valid_eq (set_sAllOf None n)).
  cbn [sType sLength sProperties sAdditionalProperties sPatternProperties sItems sContains sMinContains sMaxContains sPrefixItems sAdditionalItems sNot sAllOf sAnyOf sOneOf sIf sThen sElse sRef set_sAllOf].
  change (okFlat matches formatted (set_sAllOf None n) v) with (okFlat matches formatted n v).
  assert (E : present (every (fun c => valid c v)) (sAllOf n) <-> forall b, In b (branches n) -> valid b v).
  { unfold branches. destruct (sAllOf n); cbn; [apply every_In|tauto]. }
  rewrite E. cbn [present]. tauto.
Qed.
Lemma valid_conjuncts : forall n v, valid n v <-> forall c, In c (conjuncts n) -> valid c v.
Proof.
  fix IH 1. intros n v. rewrite valid_allOf, conjuncts_eq.
  assert (E : (forall b, In b (branches n) -> valid b v) <-> (forall c, In c (concatMap conjuncts (branches n)) -> valid c v)).
  { destruct n. unfold branches. cbn. destruct sAllOf as [l|]; [|cbn; tauto]. cbn. induction l as [|b r IHl]; cbn; [tauto|].
    specialize (IH b v). split.
    - intros H c I. apply in_app_iff in I. destruct I as [I|I]; [apply (proj1 IH); auto|]. apply (proj1 IHl); auto.
    - intros H c [<-|I].
      + apply (proj2 IH). intros c I. apply H. apply in_app_iff. auto.
      + apply (proj2 IHl); auto. intros c' I'. apply H. apply in_app_iff. auto. }
  rewrite E. cbn [In]. split; [intros [H1 H2] c [<-|I]; auto|intros H; split; [apply H; left; reflexivity|intros c I; apply H; right; exact I]].
Qed.

(* ------------------------------------------------------------------ schemas that fit *)
Definition together (d : nat) (subs : list schemaNode) : Prop :=
  match subs with [] | [_] => True | _ => fit d (concatMap conjuncts subs) end.
Lemma fit_S : forall d l, fit (S d) l <-> (forall n, In n l -> single n) /\ ForallOrdPairs agree l /\ forall w, together d (concatMap (subAt w) l).
Proof.
  intros. cbn [fit]. split; intros (A & B & C); (split; [exact A|]); (split; [exact B|]); intros w; specialize (C w); unfold together in *;
  destruct (concatMap (subAt w) l) as [|x [|y r]]; auto.
Qed.
Lemma agree_sym : forall a b, agree a b -> agree b a.
Proof.
  intros a b [H1 H2 H3 H4 H5 H6 H7 H8 H9 H10].
  constructor; auto; try (intros x y X Y; symmetry; eauto; fail); unfold notBoth in *; tauto.
Qed.
Lemma together_perm : forall d, (forall l l', Permutation l l' -> fit d l -> fit d l') ->
  forall l l', Permutation l l' -> together d l -> together d l'.
Proof.
  intros d IH l l' P H. pose proof (Permutation_length P) as L. unfold together in *.
  destruct l' as [|x [|y r']]; auto. destruct l as [|a [|b r]]; try discriminate L.
  eapply IH; [|exact H]. apply concatMap_perm. auto.
Qed.
Lemma fit_perm : forall d l l', Permutation l l' -> fit d l -> fit d l'.
Proof.
  induction d; intros l l' P H; [destruct H|]. apply fit_S. apply fit_S in H. destruct H as (H1 & H2 & H3). split; [|split].
  - intros n I. apply H1. eapply Permutation_in; [apply Permutation_sym|]; eauto.
  - eapply pairs_perm; eauto using agree_sym.
  - intros w. apply (together_perm d IHd (concatMap (subAt w) l)); [apply concatMap_perm; auto|apply H3].
Qed.
Lemma pairs_tail : forall A (R : A -> A -> Prop) a b, ForallOrdPairs R (a ++ b)%list -> ForallOrdPairs R b.
Proof. induction a; simpl; intros b H; auto. inversion H; subst. auto. Qed.
Lemma fit_tail : forall d a b, fit d (a ++ b)%list -> fit d b.
Proof.
  induction d; intros a b H; [destruct H|]. apply fit_S. apply fit_S in H. destruct H as (H1 & H2 & H3). split; [|split].
  - intros n I. apply H1, in_app_iff. auto.
  - eapply pairs_tail; eauto.
  - intros w. specialize (H3 w). rewrite concatMap_app in H3. unfold together in *.
    destruct (concatMap (subAt w) b) as [|x [|y r]]; auto.
    destruct (concatMap (subAt w) a ++ x :: y :: r)%list as [|x' [|y' r']] eqn:E.
    + destruct (concatMap (subAt w) a); discriminate.
    + destruct (concatMap (subAt w) a) as [|? [|? ?]]; discriminate.
    + rewrite <- E, concatMap_app in H3. eapply IHd; eauto.
Qed.
Lemma together_tail : forall d a b, together d (a ++ b)%list -> together d b.
Proof.
  intros d a b H. unfold together in *. destruct b as [|x [|y r]]; auto.
  destruct (a ++ x :: y :: r)%list as [|x' [|y' r']] eqn:E.
  - destruct a; discriminate.
  - destruct a as [|? [|? ?]]; discriminate.
  - rewrite <- E, concatMap_app in H. eapply fit_tail; eauto.
Qed.

(* ------------------------------------------------------------------ merging the sub-schemas of one place *)
Section Rec.
Variable E : penv.
Variable rec : list schemaNode -> P schemaNode.
Hypothesis recStable : forall l, stable E (rec l).
Definition quiet (s : pst) : Prop := ~ reportedEnum (pErrs s).
Lemma quiet_back : forall s s', keeps E s s' -> quiet s' -> quiet s.
Proof.
  intros s s' K Q (d & p & I). apply Q. destruct (kErrs _ _ _ K) as [l Hl]. exists d, p. rewrite Hl. apply in_app_iff. auto.
Qed.

Definition recOk (d : nat) : Prop := forall nodes X s m s',
  fit d (concatMap conjuncts nodes ++ X)%list -> rec nodes s = Ok (m, s') -> quiet s' ->
  fit d (conjuncts m ++ X)%list /\ forall v, valid m v -> forall n, In n nodes -> valid n v.

(* at one place: only one side has a sub-schema, or the two were merged *)
Definition meets (la ln lm : list schemaNode) : Prop :=
  (la = [] /\ lm = ln) \/ (ln = [] /\ lm = la) \/
  exists x y z s s', la = [x] /\ ln = [y] /\ lm = [z] /\ rec [x; y] s = Ok (z, s') /\ quiet s'.
Lemma meets_nil : forall la ln lm, meets la ln lm -> (lm = [] <-> la = [] /\ ln = []).
Proof. intros la ln lm [[-> ->]|[[-> ->]|(x & y & z & s & s' & -> & -> & -> & _)]]; [tauto|tauto|]. split; [discriminate|intros [? _]; discriminate]. Qed.
Lemma meets_together : forall d la ln lm X, recOk d -> meets la ln lm -> together d (la ++ ln ++ X)%list -> together d (lm ++ X)%list.
Proof.
  intros d la ln lm X R [[-> ->]|[[-> ->]|(x & y & z & s & s' & -> & -> & -> & H & Q)]] T; auto.
  cbn [app] in T. unfold together in T. cbn [concatMap] in T.
  destruct (R [x; y] (concatMap conjuncts X) s z s') as [F _]; auto.
  { cbn [concatMap]. rewrite app_nil_r, <- app_assoc. exact T. }
  unfold together. cbn [app]. destruct X; auto.
Qed.
Lemma meets_valid : forall d la ln lm X v, recOk d -> meets la ln lm -> together d (la ++ ln ++ X)%list ->
  (forall c, In c lm -> valid c v) -> (forall c, In c la -> valid c v) /\ (forall c, In c ln -> valid c v).
Proof.
  intros d la ln lm X v R [[-> ->]|[[-> ->]|(x & y & z & s & s' & -> & -> & -> & H & Q)]] T V.
  - split; auto. intros c [].
  - split; auto. intros c [].
  - cbn [app] in T. unfold together in T. cbn [concatMap] in T.
    destruct (R [x; y] (concatMap conjuncts X) s z s') as [_ F]; auto.
    { cbn [concatMap]. rewrite app_nil_r, <- app_assoc. exact T. }
    specialize (F v (V z (or_introl eq_refl))). split; intros c [<-|[]]; apply F; simpl; auto.
Qed.

Definition at1 {A} (k : string) (m : list (string * A)) := ofOption (assoc k m).
Lemma mapLoop_meets : forall node merged s r s', mergeMapLoop rec merged node s = Ok (r, s') -> quiet s' ->
  NoDup (keys merged) -> NoDup (keys node) ->
  NoDup (keys r) /\ forall k, meets (at1 k merged) (at1 k node) (at1 k r).
Proof.
  induction node as [|[k0 v] node IH]; intros merged s r s' H Q N1 N2; cbn [mergeMapLoop] in H.
  - apply pret_ok in H. destruct H; subst. split; auto. intros k. right. left. auto.
  - cbn [keys map fst] in N2. inversion N2 as [|? ? N3 N4]; subst.
    assert (Step : forall x s1 , mergeMapLoop rec (massign k0 x merged) node s1 = Ok (r, s') -> meets (at1 k0 merged) [v] [x] ->
      NoDup (keys r) /\ forall k, meets (at1 k merged) (at1 k ((k0, v) :: node)) (at1 k r)).
    { intros x s1 H1 M. destruct (IH _ _ _ _ H1 Q (massign_NoDup _ _ _ _ N1) N4) as [A B]. split; auto. intros k.
      specialize (B k). unfold at1 in *. cbn [assoc]. destruct (String.eqb_spec k k0).
      - subst k. rewrite assoc_massign_same in B. apply assoc_None in N3. rewrite N3 in B. cbn [ofOption] in *.
        destruct B as [[B _]|[[_ ->]|(? & ? & ? & ? & ? & _ & B & _)]]; try discriminate B. exact M.
      - rewrite assoc_massign_other in B; auto. }
    destruct (assoc k0 merged) as [old|] eqn:Eo.
    + apply pbind_ok in H. destruct H as (x & s1 & H1 & H). apply (Step x s1 H).
      right. right. exists old, v, x, s, s1. unfold at1. rewrite Eo. repeat split; auto.
      eapply quiet_back; [|exact Q]. eapply st_mergeMapLoop; eauto.
    + apply (Step v s H). left. unfold at1. rewrite Eo. auto.
Qed.
Lemma map_meets : forall a b s r s', mergeMap rec a b s = Ok (r, s') -> quiet s' ->
  NoDup (keys (get_or a [])) -> NoDup (keys (get_or b [])) ->
  NoDup (keys (get_or r [])) /\ forall k, meets (at1 k (get_or a [])) (at1 k (get_or b [])) (at1 k (get_or r [])).
Proof.
  intros a b s r s' H Q N1 N2. unfold mergeMap in H. destruct b as [l|].
  - apply pbind_ok in H. destruct H as (x & s1 & H1 & H). apply pret_ok in H. destruct H; subst. cbn [get_or] in *. eapply mapLoop_meets; eauto.
  - apply pret_ok in H. destruct H; subst. split; auto. intros k. right. left. auto.
Qed.

Lemma prefixLoop_meets : forall merged node s r s', mergePrefixLoop rec merged node s = Ok (r, s') -> quiet s' ->
  List.length r = Nat.max (List.length merged) (List.length node) /\
  forall i, meets (ofOption (nth_error merged i)) (ofOption (nth_error node i)) (ofOption (nth_error r i)).
Proof.
  induction merged as [|a ra IH]; intros node s r s' H Q; cbn [mergePrefixLoop] in H.
  - apply pret_ok in H. destruct H; subst. split; auto. intros i. left. destruct i; auto.
  - destruct node as [|b rb].
    + apply pret_ok in H. destruct H; subst. split; [cbn; lia|]. intros i. right. left. destruct i; auto.
    + apply pbind_ok in H. destruct H as (x & s1 & H1 & H). apply pbind_ok in H. destruct H as (t & s2 & H2 & H).
      apply pret_ok in H. destruct H; subst. destruct (IH _ _ _ _ H2 Q) as [L M]. split; [cbn; lia|].
      intros [|i]; [|apply M]. right. right. exists a, b, x, s, s1. repeat split; auto.
      eapply quiet_back; [|exact Q]. eapply st_mergePrefixLoop; eauto.
Qed.
Lemma prefix_meets : forall a b s r s', mergePrefix rec a b s = Ok (r, s') -> quiet s' ->
  List.length (get_or r []) = Nat.max (List.length (get_or a [])) (List.length (get_or b [])) /\
  forall i, meets (ofOption (nth_error (get_or a []) i)) (ofOption (nth_error (get_or b []) i)) (ofOption (nth_error (get_or r []) i)).
Proof.
  intros a b s r s' H Q. unfold mergePrefix in H. destruct b as [l|].
  - apply pbind_ok in H. destruct H as (x & s1 & H1 & H). apply pret_ok in H. destruct H; subst. cbn [get_or] in *. eapply prefixLoop_meets; eauto.
  - apply pret_ok in H. destruct H; subst. cbn [get_or]. split; [cbn; lia|]. intros i. right. left. destruct i; auto.
Qed.

Definition plainItems (o : option (itemsData schemaNode)) : Prop :=
  forall d, o = Some d -> itNode d <> None /\ itNodes d = None /\ itDisallow d = false.
Definition itemsAt (o : option (itemsData schemaNode)) : list schemaNode := match o with Some d => ofOption (itNode d) | None => [] end.
Lemma items_meets : forall a b s r s', mergeItems rec a b s = Ok (r, s') -> quiet s' -> plainItems a -> plainItems b ->
  plainItems r /\ meets (itemsAt a) (itemsAt b) (itemsAt r).
Proof.
  intros a b s r s' H Q Pa Pb. unfold mergeItems in H. destruct b as [d|].
  - destruct (Pb d eq_refl) as (B1 & B2 & B3). unfold itemsAt. destruct (itNode d) as [y|] eqn:Ey; [|congruence]. rewrite B3, orb_false_r in H.
    destruct a as [d'|]; cbn [get_or itDisallow itNode itNodes] in H.
    + destruct (Pa d' eq_refl) as (A1 & A2 & A3). rewrite A3, A2 in H. destruct (itNode d') as [x|] eqn:Ex; [|congruence].
      apply pbind_ok in H. destruct H as (z & s1 & H1 & H). apply pret_ok in H. destruct H; subst. split.
      * intros d0 E0. inversion E0; subst. cbn. repeat split; auto; discriminate.
      * right. right. exists x, y, z. do 2 eexists. repeat split; eauto.
    + apply pret_ok in H. destruct H; subst. split.
      * intros d0 E0. inversion E0; subst. cbn. repeat split; auto; discriminate.
      * left. split; auto.
  - apply pret_ok in H. destruct H; subst. split; auto. right. left. auto.
Qed.

Lemma ptr_meets : forall a b s r s', mergePtr rec a b s = Ok (r, s') -> quiet s' -> meets (ofOption a) (ofOption b) (ofOption r).
Proof.
  intros a b s r s' H Q. unfold mergePtr in H. destruct a as [x|], b as [y|].
  - apply pbind_ok in H. destruct H as (z & s1 & H1 & H). apply pret_ok in H. destruct H; subst. right. right. exists x, y, z. do 2 eexists. repeat split; eauto.
  - apply pret_ok in H. destruct H; subst. right. left. auto.
  - apply pret_ok in H. destruct H; subst. left. auto.
  - apply pret_ok in H. destruct H; subst. left. auto.
Qed.

Definition nofAt (o : option (nodeOrFalse schemaNode)) : list schemaNode := match o with Some d => ofOption (nofSchema d) | None => [] end.
Definition forbids (o : option (nodeOrFalse schemaNode)) : Prop := exists d, o = Some d /\ nofFalse d = true.
Lemma nof_meets : forall a b s r s', mergeNof rec a b s = Ok (r, s') -> quiet s' ->
  (r = None <-> a = None /\ b = None) /\
  ((forbids r /\ (r = a \/ r = b)) \/
   (~ forbids r /\ ~ forbids a /\ ~ forbids b /\ meets (nofAt a) (nofAt b) (nofAt r))).
Proof.
  intros a b s r s' H Q. unfold mergeNof in H.
  assert (F : forall d, nofFalse d = false -> ~ forbids (Some d)) by (intros d Hd (d' & X & Y); inversion X; subst; congruence).
  assert (N : ~ forbids None) by (intros (d' & X & Y); discriminate X).
  destruct b as [b|].
  - destruct a as [a|].
    + destruct (nofFalse a) eqn:Fa.
      * apply pret_ok in H. destruct H; subst. split; [split; [discriminate|intros []; discriminate]|]. left. split; [exists a; auto|auto].
      * destruct (nofFalse b) eqn:Fb.
        -- apply pret_ok in H. destruct H; subst. split; [split; [discriminate|intros []; discriminate]|]. left. split; [exists b; auto|auto].
        -- destruct (nofSchema a) as [x|] eqn:Ea; [destruct (nofSchema b) as [y|] eqn:Eb|].
           ++ apply pbind_ok in H. destruct H as (z & s1 & H1 & H). apply pret_ok in H. destruct H; subst.
              split; [split; [discriminate|intros []; discriminate]|]. right. split; [apply F; reflexivity|]. split; [auto|]. split; [auto|].
              unfold nofAt. rewrite Ea, Eb. right. right. exists x, y, z. do 2 eexists. repeat split; eauto.
           ++ apply pret_ok in H. destruct H; subst. split; [split; [discriminate|intros []; discriminate]|]. right. split; [auto|]. split; [auto|]. split; [auto|].
              unfold nofAt. rewrite Eb. right. left. auto.
           ++ apply pret_ok in H. destruct H; subst. split; [split; [discriminate|intros []; discriminate]|]. right. split; [auto|]. split; [auto|]. split; [auto|].
              unfold nofAt. rewrite Ea. left. auto.
    + apply pret_ok in H. destruct H; subst. split; [split; [discriminate|intros []; discriminate]|].
      destruct (nofFalse b) eqn:Fb; [left; split; [exists b; auto|auto]|]. right. split; [auto|]. split; [auto|]. split; [auto|]. left. auto.
  - apply pret_ok in H. destruct H; subst. split; [tauto|].
    destruct a as [a|]; [|right; split; [auto|split; [auto|split; [auto|left; auto]]]].
    destruct (nofFalse a) eqn:Fa; [left; split; [exists a; auto|auto]|]. right. split; [auto|]. split; [auto|]. split; [auto|]. right. left. auto.
Qed.
End Rec.
End V.
