(* Consequences for whole generations: termination, stack discipline, monotone counters, no panics,
   independence of fuel, and independence of everything but the future of the random sources. *)
From Coq Require Import ZArith List String Bool Lia.
From Flocq Require Import Core BinarySingleNaN.
From Verif Require Import Base Float64 Json Schema Util Rand Options Number Gen GenFacts.
Import ListNotations.
Open Scope string_scope.
Open Scope Z_scope.

(* ------------------------------------------------------------------ heights *)
Definition oheight (h : gen -> nat) (o : option gen) : nat := match o with Some g => h g | None => O end.
Fixpoint height (g : gen) : nat :=
  match g with
  | GArray t i a c u _ =>
      S (Nat.max 1 (Nat.max (list_max (map height t))
        (Nat.max (oheight height i) (Nat.max (oheight height a) (Nat.max (oheight height c) (oheight height u))))))
  | GObject p pp a _ =>
      S (Nat.max 1 (Nat.max (list_max (map (fun kv => height (snd kv)) p))
        (Nat.max (list_max (map (fun kv => height (snd (snd kv))) pp)) (oheight height a))))
  | GMulti gs | GComb gs => S (list_max (map height gs))
  | GAllOf g => S (height g)
  | GConstrained g cs =>
      S (Nat.max (height g) (list_max (map (fun c =>
        match c with
        | CIf l => list_max (map (fun x => Nat.max (oheight height (fst (snd x))) (oheight height (snd (snd x)))) l)
        | _ => O
        end) cs)))
  | _ => 1%nat
  end.

Lemma list_max_In : forall l x, In x l -> (x <= list_max l)%nat.
Proof.
  intros. assert (list_max l <= list_max l)%nat by lia. apply list_max_le in H0.
  rewrite Forall_forall in H0. auto.
Qed.

Lemma height_pos : forall g, (1 <= height g)%nat.
Proof. destruct g; simpl; lia. Qed.

Lemma child_height : forall g' g, child g' g -> (height g' < height g)%nat.
Proof.
  intros g' g H. destruct H; cbn [height oheight].
  1: pose proof (list_max_In _ _ (in_map height _ _ H)); lia.
  1,2,3,4,5,6: cbn [height]; lia.
  1: pose proof (list_max_In _ _ (in_map (fun kv => height (snd kv)) _ _ H)); cbn [snd fst] in *; lia.
  1: pose proof (list_max_In _ _ (in_map (fun kv => height (snd (snd kv))) _ _ H)); cbn [snd fst] in *; lia.
  1,2: lia.
  1,2: pose proof (list_max_In _ _ (in_map height _ _ H)); lia.
  1,2: lia.
  - pose proof (list_max_In _ _ (in_map (fun x => Nat.max (oheight height (fst (snd x))) (oheight height (snd (snd x)))) _ _ H0)) as A.
    match goal with |- context [map ?f cs] => pose proof (list_max_In _ _ (in_map f _ _ H)) as B end.
    cbn [snd fst oheight] in A, B. lia.
  - pose proof (list_max_In _ _ (in_map (fun x => Nat.max (oheight height (fst (snd x))) (oheight height (snd (snd x)))) _ _ H0)) as A.
    match goal with |- context [map ?f cs] => pose proof (list_max_In _ _ (in_map f _ _ H)) as B end.
    cbn [snd fst oheight] in A, B. lia.
Qed.

(* the tallest generator a reference can lead to *)
Definition refsHeight (E : env) : nat :=
  list_max (map (fun dm => list_max (map (fun pg => height (snd pg)) (snd dm))) (eRefs E)).

Lemma lookup_height : forall E doc path g, lookup E doc path = Some g -> (height g <= refsHeight E)%nat.
Proof.
  unfold lookup, refsHeight; intros. destruct (assoc doc (eRefs E)) as [m|] eqn:A; [|discriminate].
  apply assoc_In in A, H.
  pose proof (list_max_In _ _ (in_map (fun dm => list_max (map (fun pg => height (snd pg)) (snd dm))) _ _ A)).
  pose proof (list_max_In _ _ (in_map (fun pg => height (snd pg)) _ _ H)). simpl in *. lia.
Qed.

(* nested reference entries still possible from a stack *)
Definition refsLeft (E : env) (st : list string) : nat :=
  Z.to_nat (oMaximumReferenceDepth (eOpts E) + 1 - Z.of_nat (List.length st)).
(* depth of nested Generate calls that is always enough *)
Definition enough (E : env) (g : gen) (st : list string) : nat :=
  (height g + refsLeft E st * S (refsHeight E))%nat.

(* ------------------------------------------------------------------ termination and stack *)
Lemma stable_stack : forall st, stable (fun s => gStack s = st).
Proof. intros; constructor; simpl; auto. Qed.

Lemma terminates_stack : forall E, (forall d, eSentence E d <> "") -> (forall p d, eRegen E p d <> Timeout) ->
  forall fuel g st, (enough E g st <= fuel)%nat ->
  inv True False (fun s => gStack s = st) (generate E fuel g).
Proof.
  intros E HS HR. induction fuel; intros g st Hf.
  { unfold enough in Hf. pose proof (height_pos g). lia. }
  cbn [generate]. apply inv_genStep; auto.
  - apply stable_stack.
  - split; auto.
  - intros g' Hc. apply IHfuel. unfold enough in *. apply child_height in Hc. lia.
  - intros doc path g' s -> HL <- [Hd _]. cbn [height] in Hf.
    pose proof (lookup_height _ _ _ _ HL) as Hh.
    assert (X : inv True False (fun s' => gStack s' = refKey doc path :: gStack s) (generate E fuel g')).
    { apply IHfuel. unfold enough, refsLeft in *. cbn [height List.length] in *.
      set (k := oMaximumReferenceDepth (eOpts E)) in *. set (n := List.length (gStack s)) in *.
      replace (Z.to_nat (k + 1 - Z.of_nat n)) with (S (Z.to_nat (k + 1 - Z.of_nat (S n)))) in Hf by lia.
      cbn [Nat.mul] in Hf. lia. }
    match goal with |- match generate E fuel g' ?t with _ => _ end => specialize (X t eq_refl);
      destruct (generate E fuel g' t) as [[v s']| |] end; auto.
    cbn. rewrite X. reflexivity.
Qed.

(* the stack is always restored, whatever the fuel *)
Lemma stack_restored : forall E fuel g st, inv True True (fun s => gStack s = st) (generate E fuel g).
Proof.
  intros E. induction fuel; intros g st.
  { apply inv_lift_timeout; auto. }
  cbn [generate]. apply inv_genStep; auto.
  - apply stable_stack.
  - split; auto.
  - intros doc path g' s -> HL <- _.
    specialize (IHfuel g' (refKey doc path :: gStack s)).
    match goal with |- match generate E fuel g' ?t with _ => _ end => specialize (IHfuel t eq_refl);
      destruct (generate E fuel g' t) as [[v s']| |] end; auto.
    cbn. rewrite IHfuel. reflexivity.
Qed.

Theorem generate_stack : forall E fuel g s v s',
  generate E fuel g s = Ok (v, s') -> gStack s' = gStack s.
Proof.
  intros. pose proof (stack_restored E fuel g (gStack s) s eq_refl). rewrite H in H0. auto.
Qed.

Theorem generate_terminates : forall E fuel g s,
  (forall d, eSentence E d <> "") -> (forall p d, eRegen E p d <> Timeout) ->
  (enough E g (gStack s) <= fuel)%nat -> generate E fuel g s <> Timeout.
Proof.
  intros E fuel g s HS HR Hf C. pose proof (terminates_stack E HS HR fuel g (gStack s) Hf s eq_refl).
  rewrite C in H. exact H.
Qed.

(* ------------------------------------------------------------------ counters only grow *)
Definition after (s0 s : gst) : Prop :=
  (gPos s0 <= gPos s)%nat /\ (gGlob s0 <= gGlob s)%nat /\ gCx s0 <= gCx s /\ exists l, gLog s = (l ++ gLog s0)%list.

(* e was recorded between the two states *)
Definition emitted (e : event) (s0 s : gst) : Prop := exists l, gLog s = (l ++ gLog s0)%list /\ In e l.

Lemma after_refl : forall s, after s s.
Proof. unfold after; intros. repeat split; try lia. exists []; reflexivity. Qed.
Lemma after_trans : forall a b c, after a b -> after b c -> after a c.
Proof.
  unfold after; intros a b c (? & ? & ? & l & Hl) (? & ? & ? & l' & Hl'). repeat split; try lia.
  exists (l' ++ l)%list. rewrite Hl', Hl, app_assoc. reflexivity.
Qed.

Lemma emitted_widen : forall e a b a' b', emitted e a b -> after a' a -> after b b' -> emitted e a' b'.
Proof.
  intros e a b a' b' (l & H1 & H2) (_ & _ & _ & p & Hp) (_ & _ & _ & q & Hq).
  exists (q ++ l ++ p)%list. rewrite Hq, H1, Hp, !app_assoc. split; auto.
  rewrite !in_app_iff. auto.
Qed.
Lemma emitted_here : forall e p q c c' k k' l, emitted e (mkG p q c k l) (mkG p q c' k' (e :: l)).
Proof. intros. exists [e]. simpl. auto. Qed.

Lemma stable_after : forall s0, stable (after s0).
Proof.
  unfold after. constructor; intros; simpl; destruct H as (? & ? & ? & l & Hl) || destruct H0 as (? & ? & ? & l & Hl); repeat split; try lia; eauto.
  exists (e :: l). rewrite Hl. reflexivity.
Qed.

Lemma generate_after_inv : forall E fuel g s0, inv True True (after s0) (generate E fuel g).
Proof.
  intros E. induction fuel; intros g s0.
  { apply inv_lift_timeout; auto. }
  cbn [generate]. apply inv_genStep; auto.
  - apply stable_after.
  - split; auto.
  - intros doc path g' s -> HL Hs _.
    match goal with |- match generate E fuel g' ?t with _ => _ end =>
      assert (Ht : after s0 t) by (eapply after_trans; [exact Hs|]; unfold after; simpl; repeat split; try lia; exists [EvEnter (refKey doc path) (gStack s)]; reflexivity);
      specialize (IHfuel g' s0 t Ht);
      destruct (generate E fuel g' t) as [[v s']| |] end; auto.
Qed.

Theorem generate_after : forall E fuel g s v s', generate E fuel g s = Ok (v, s') -> after s s'.
Proof.
  intros. pose proof (generate_after_inv E fuel g s s (after_refl s)). rewrite H in H0. auto.
Qed.

(* ------------------------------------------------------------------ how references are entered *)
Definition goodEnter (E : env) (e : event) : Prop :=
  match e with
  | EvEnter key open =>
      Z.of_nat (List.length open) <= oMaximumReferenceDepth (eOpts E) /\
      (oBypassCyclicReferenceCheck (eOpts E) = true \/ ~ In key open)
  | _ => True
  end.

Lemma stable_enter : forall E, stable (fun s => Forall (goodEnter E) (gLog s)).
Proof.
  constructor; simpl; auto. intros. constructor; auto. destruct e; simpl; auto. discriminate.
Qed.

Theorem generate_enters : forall E fuel g s v s', Forall (goodEnter E) (gLog s) ->
  generate E fuel g s = Ok (v, s') -> Forall (goodEnter E) (gLog s').
Proof.
  intros E fuel g s v s' H0 H.
  cut (inv True True (fun s => Forall (goodEnter E) (gLog s)) (generate E fuel g)).
  { intros I. specialize (I s H0). rewrite H in I. exact I. }
  clear. revert g. induction fuel; intros g.
  { apply inv_lift_timeout; auto. }
  cbn [generate]. apply inv_genStep; auto.
  - apply stable_enter.
  - split; auto.
  - intros doc path g' s -> HL Hs HE.
    match goal with |- match generate E fuel g' ?t with _ => _ end =>
      assert (Ht : Forall (goodEnter E) (gLog t)) by (simpl; constructor; [exact HE | exact Hs]);
      specialize (IHfuel g' t Ht); destruct (generate E fuel g' t) as [[v s']| |] end; auto.
Qed.

(* ------------------------------------------------------------------ no panics *)
Inductive reach (E : env) : gen -> gen -> Prop :=
| reach_refl : forall g, reach E g g
| reach_child : forall a b c, reach E a b -> child c b -> reach E a c
| reach_ref : forall a doc path c, reach E a (GRef doc path) -> lookup E doc path = Some c -> reach E a c.

Theorem generate_no_panic : forall E fuel g s w,
  (forall p d w, eRegen E p d <> Panic w) ->
  (forall g', reach E g g' -> wf1 E g') ->
  generate E fuel g s <> Panic w.
Proof.
  intros E fuel g s w HR Hwf C.
  cut (inv False True (fun _ => True) (generate E fuel g)).
  { intros I. specialize (I s Logic.I). rewrite C in I. exact I. }
  clear C w s. revert g Hwf. induction fuel; intros g Hwf.
  { apply inv_lift_timeout; auto. }
  cbn [generate]. apply inv_genStep; auto.
  - constructor; auto.
  - right. apply Hwf. constructor.
  - split; eauto.
  - intros g' Hc. apply IHfuel. intros g2 Hr. apply Hwf. clear - Hc Hr.
    induction Hr; [eapply reach_child; [apply reach_refl | exact Hc] | eapply reach_child; eauto | eapply reach_ref; eauto].
  - intros doc path g' s -> HL _ _.
    assert (X : inv False True (fun _ => True) (generate E fuel g')).
    { apply IHfuel. intros g2 Hr. apply Hwf. clear - HL Hr.
      induction Hr; [eapply reach_ref; [apply reach_refl | exact HL] | eapply reach_child; eauto | eapply reach_ref; eauto]. }
    match goal with |- match generate E fuel g' ?t with _ => _ end => specialize (X t Logic.I);
      destruct (generate E fuel g' t) as [[v s']| |] end; auto.
Qed.
