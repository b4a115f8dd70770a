(* Equality of JSON values (SpecSchema.jeq) and equality of the text json.Marshal writes (Json.marshal):
   values with the same text are equal, and equality of values is an equivalence on values that have a
   text. *)
From Coq Require Import ZArith Reals Lra Lia List String Bool.
From Flocq Require Import Core BinarySingleNaN.
From Verif Require Import Base Float64 Json Schema SpecNumber SpecSchema.
Import ListNotations.
Open Scope string_scope.
Open Scope Z_scope.

Definition marshals : list json -> option (list enc) :=
  fix go l := match l with [] => Some [] | x :: r => match marshal x, go r with Some a, Some b => Some (a :: b) | _, _ => None end end.
Definition marshalMembers : list (string * json) -> option (list (string * enc)) :=
  fix go m := match m with [] => Some [] | (k, x) :: r => match marshal x, go r with Some a, Some b => Some (ins_key k a b) | _, _ => None end end.
Lemma marshal_arr : forall l, marshal (JArr l) = match marshals l with Some es => Some (EArr es) | None => None end.
Proof. reflexivity. Qed.
Lemma marshal_obj : forall m, marshal (JObj m) = match marshalMembers m with Some es => Some (EObj es) | None => None end.
Proof. reflexivity. Qed.

(* ------------------------------------------------------------------ numbers *)
Lemma norm_pos_value : forall p e p' e', norm_pos p e = (p', e') -> F2R (Float radix2 (Zpos p') e') = F2R (Float radix2 (Zpos p) e).
Proof.
  induction p; intros e p' e' H; simpl in H; try (inversion H; subst; reflexivity).
  rewrite (IHp _ _ _ H). unfold F2R. cbn [Fnum Fexp]. rewrite bpow_plus.
  change (bpow radix2 1) with 2%R. replace (Z.pos p~0) with (2 * Z.pos p) by lia. rewrite mult_IZR. ring.
Qed.

Definition encValue (e : enc) (x : R) : Prop :=
  match e with ENum m k => x = F2R (Float radix2 m k) | ENegZero => x = 0%R | _ => False end.

Lemma enc_Z_value : forall m e, encValue (enc_Z m e) (F2R (Float radix2 m e)).
Proof.
  intros [|p|p] e; unfold enc_Z.
  - cbn. rewrite !F2R_0. reflexivity.
  - destruct (norm_pos p e) as [p' e'] eqn:H. cbn. symmetry. apply norm_pos_value; auto.
  - destruct (norm_pos p e) as [p' e'] eqn:H. cbn. apply norm_pos_value in H.
    change (Z.neg p) with (- Z.pos p). change (Z.neg p') with (- Z.pos p'). rewrite !F2R_Zopp. congruence.
Qed.

Lemma marshal_number : forall v e x, marshal v = Some e -> (encValue e x <-> numberValue v x).
Proof.
  intros v e x H. destruct v as [|b|z|f|s|l|m]; cbn [marshal] in H.
  - inversion H. cbn. tauto.
  - inversion H. cbn. tauto.
  - inversion H; subst e. assert (W := enc_Z_value z 0). cbn [numberValue].
    replace (F2R (Float radix2 z 0)) with (IZR z) in W by (unfold F2R; cbn; ring).
    destruct (enc_Z z 0); cbn in *; try tauto; split; intros; lra.
  - cbn [numberValue]. destruct f as [sg|sg| |sg m e0 Hb]; cbn [enc_f64] in H; try discriminate.
    + destruct sg; inversion H; subst e; cbn; [|rewrite F2R_0]; split; [auto|tauto|auto|tauto].
    + inversion H; subst e. assert (W := enc_Z_value (if sg then Z.neg m else Z.pos m) e0).
      cbn [is_finite B2R]. replace (F2R {| Fnum := cond_Zopp sg (Z.pos m); Fexp := e0 |}) with (F2R (Float radix2 (if sg then Z.neg m else Z.pos m) e0)) by (destruct sg; reflexivity).
      destruct (enc_Z _ e0); cbn in *; try tauto; rewrite W; split; [split|intros []|split|intros []]; auto.
  - inversion H. cbn. tauto.
  - destruct (marshals l) eqn:Em; unfold marshals in Em; rewrite Em in H; inversion H; cbn; tauto.
  - destruct (marshalMembers m) eqn:Em; unfold marshalMembers in Em; rewrite Em in H; inversion H; cbn; tauto.
Qed.

(* ------------------------------------------------------------------ objects *)
Lemma assoc_ins : forall k0 k a l, assoc k0 (ins_key k a l) = if String.eqb k0 k then Some a else assoc k0 l.
Proof.
  induction l as [|[k' v'] r IH]; cbn [ins_key assoc].
  - reflexivity.
  - destruct (String.leb k k') eqn:L; cbn [assoc]; [reflexivity|]. rewrite IH.
    destruct (String.eqb_spec k0 k'), (String.eqb_spec k0 k); auto. subst.
    unfold String.leb in L. pose proof (String.compare_antisym k k) as W.
    destruct (String.compare k k); cbn in W; discriminate.
Qed.
Lemma members_assoc : forall m es k, marshalMembers m = Some es ->
  assoc k es = match assoc k m with Some x => marshal x | None => None end.
Proof.
  induction m as [|[k' x] r IH]; intros es k H; cbn [marshalMembers] in H.
  - inversion H; subst. reflexivity.
  - destruct (marshal x) as [a|] eqn:Ex; [|discriminate]. fold marshalMembers in H.
    destruct (marshalMembers r) as [b|] eqn:Er; [|discriminate]. inversion H; subst es.
    rewrite assoc_ins. cbn [assoc]. destruct (String.eqb k k'); auto.
Qed.
Lemma members_text : forall m es k x, marshalMembers m = Some es -> assoc k m = Some x -> exists a, marshal x = Some a.
Proof.
  induction m as [|[k' y] r IH]; intros es k x H A; cbn [marshalMembers] in H; [discriminate|].
  destruct (marshal y) as [a|] eqn:Ey; [|discriminate]. fold marshalMembers in H.
  destruct (marshalMembers r) as [b|] eqn:Er; [|discriminate].
  cbn [assoc] in A. destruct (String.eqb k k'); [|eapply IH; eauto]. inversion A; subst. eauto.
Qed.

(* ------------------------------------------------------------------ the same text means equal values *)
Theorem marshal_jeq : forall x y e, marshal x = Some e -> marshal y = Some e -> jeq x y.
Proof.
  induction x as [|b|z|f|s|l IH|m IH] using json_ind'; intros y e Hx Hy.
  - cbn in Hx. inversion Hx; subst e. destruct y; cbn [marshal] in Hy; try discriminate; try constructor.
    + inversion Hy as [W]. assert (V := enc_Z_value z 0). rewrite W in V. destruct V.
    + destruct f; cbn in Hy; try discriminate; [destruct s; discriminate|]. inversion Hy as [W]. assert (V := enc_Z_value (if s then Z.neg m else Z.pos m) e). rewrite W in V. destruct V.
    + match type of Hy with match ?q with _ => _ end = _ => destruct q; discriminate end.
    + match type of Hy with match ?q with _ => _ end = _ => destruct q; discriminate end.
  - cbn in Hx. inversion Hx; subst e. destruct y; cbn [marshal] in Hy; try discriminate.
    + inversion Hy; subst. constructor.
    + inversion Hy as [W]. assert (V := enc_Z_value z 0). rewrite W in V. destruct V.
    + destruct f; cbn in Hy; try discriminate; [destruct s; discriminate|]. inversion Hy as [W]. assert (V := enc_Z_value (if s then Z.neg m else Z.pos m) e). rewrite W in V. destruct V.
    + match type of Hy with match ?q with _ => _ end = _ => destruct q; discriminate end.
    + match type of Hy with match ?q with _ => _ end = _ => destruct q; discriminate end.
  - assert (N : numberValue (JInt z) (IZR z)) by reflexivity.
    apply jeq_num with (x := IZR z); auto. apply (marshal_number y e _ Hy). apply (marshal_number _ e _ Hx). exact N.
  - assert (N : exists r, numberValue (JFloat f) r).
    { exists (B2R f). split; auto. destruct f; cbn in Hx; try discriminate; auto. }
    destruct N as [r N]. apply jeq_num with (x := r); auto. apply (marshal_number y e _ Hy). apply (marshal_number _ e _ Hx). exact N.
  - cbn in Hx. inversion Hx; subst e. destruct y; cbn [marshal] in Hy; try discriminate.
    + inversion Hy as [W]. assert (V := enc_Z_value z 0). rewrite W in V. destruct V.
    + destruct f; cbn in Hy; try discriminate; [destruct s0; discriminate|]. inversion Hy as [W]. assert (V := enc_Z_value (if s0 then Z.neg m else Z.pos m) e). rewrite W in V. destruct V.
    + inversion Hy; subst. constructor.
    + match type of Hy with match ?q with _ => _ end = _ => destruct q; discriminate end.
    + match type of Hy with match ?q with _ => _ end = _ => destruct q; discriminate end.
  - rewrite marshal_arr in Hx. destruct (marshals l) as [es|] eqn:El; [|discriminate]. inversion Hx; subst e. clear Hx.
    destruct y as [|b|z|f|s|l'|m']; try (cbn in Hy; discriminate).
    + cbn in Hy. inversion Hy as [W]. assert (V := enc_Z_value z 0). rewrite W in V. destruct V.
    + destruct f; cbn in Hy; try discriminate; [destruct s; discriminate|]. inversion Hy as [W]. assert (V := enc_Z_value (if s then Z.neg m else Z.pos m) e). rewrite W in V. destruct V.
    + rewrite marshal_arr in Hy. destruct (marshals l') as [es'|] eqn:El'; [|discriminate]. inversion Hy; subst es'. clear Hy.
      constructor. revert es El l' El'. induction l as [|x r IHl]; intros es El l' El'; cbn [marshals] in El.
      * inversion El; subst. destruct l' as [|y' r']; [constructor|]. cbn [marshals] in El'. destruct (marshal y'); [|discriminate]. fold marshals in El'. destruct (marshals r'); discriminate.
      * destruct (marshal x) as [a|] eqn:Ex; [|discriminate]. fold marshals in El. destruct (marshals r) as [bs|] eqn:Er; [|discriminate]. inversion El; subst es.
        destruct l' as [|y' r']; cbn [marshals] in El'; [discriminate|]. destruct (marshal y') as [a'|] eqn:Ey; [|discriminate]. fold marshals in El'. destruct (marshals r') as [bs'|] eqn:Er'; [|discriminate]. inversion El'; subst.
        inversion IH; subst. constructor; eauto.
    + rewrite marshal_obj in Hy. destruct (marshalMembers m'); discriminate.
  - rewrite marshal_obj in Hx. destruct (marshalMembers m) as [es|] eqn:El; [|discriminate]. inversion Hx; subst e. clear Hx.
    destruct y as [|b|z|f|s|l'|m']; try (cbn in Hy; discriminate).
    + cbn in Hy. inversion Hy as [W]. assert (V := enc_Z_value z 0). rewrite W in V. destruct V.
    + destruct f; cbn in Hy; try discriminate; [destruct s; discriminate|]. inversion Hy as [W]. assert (V := enc_Z_value (if s then Z.neg m0 else Z.pos m0) e). rewrite W in V. destruct V.
    + rewrite marshal_arr in Hy. destruct (marshals l'); discriminate.
    + rewrite marshal_obj in Hy. destruct (marshalMembers m') as [es'|] eqn:El'; [|discriminate]. inversion Hy; subst es'. clear Hy.
      apply jeq_obj.
      * assert (K : forall m0, marshalMembers m0 = Some es -> forall k, In k (keys m0) <-> exists a, assoc k es = Some a).
        { intros m0 E0 k. rewrite (members_assoc _ _ k E0). split.
          - intros I0. destruct (key_assoc _ _ _ I0) as [x0 A]. rewrite A. eapply members_text; eauto.
          - intros [a A]. destruct (assoc k m0) eqn:A0; [|discriminate]. eapply assoc_Some_key; eauto. }
        intros k. rewrite (K m El k), (K m' El' k). tauto.
      * intros k a b Ha Hb. pose proof (members_assoc _ _ k El) as A. pose proof (members_assoc _ _ k El') as B.
        rewrite Ha in A. rewrite Hb in B. destruct (members_text _ _ _ _ El Ha) as [t T].
        apply assoc_In in Ha. rewrite Forall_forall in IH. eapply (IH (k, a)); eauto. cbn [snd]. congruence.
Qed.

(* ------------------------------------------------------------------ an equivalence *)
Lemma jeq_sym : forall x y, jeq x y -> jeq y x.
Proof.
  induction x as [|b|z|f|s|l IH|m IH] using json_ind'; intros y H; inversion H; subst; try (econstructor; eauto; fail).
  - constructor. clear H. revert l' H1. induction l; intros l' H1; inversion H1; subst; constructor; inversion IH; subst; auto.
  - apply jeq_obj; [intros k; symmetry; auto|]. intros k p q Hp Hq. rewrite Forall_forall in IH. apply (IH (k, q)); [apply assoc_In; auto|eauto].
Qed.
Lemma jeq_trans : forall x y z, jeq x y -> jeq y z -> jeq x z.
Proof.
  assert (NV : forall v xa xb, numberValue v xa -> numberValue v xb -> xa = xb).
  { intros [] xa xb; cbn; try tauto; [congruence|]. intros [_ ->] [_ ->]. reflexivity. }
  induction x as [|b|z|f|s|l IH|m IH] using json_ind'; intros y w H1 H2.
  - inversion H1; subst; auto. destruct H.
  - inversion H1; subst; auto. destruct H.
  - inversion H1; subst. inversion H2; subst; try (cbn in H0; tauto). rewrite <- (NV _ _ _ H0 H3) in H4. eapply jeq_num; eauto.
  - inversion H1; subst. inversion H2; subst; try (cbn in H0; tauto). rewrite <- (NV _ _ _ H0 H3) in H4. eapply jeq_num; eauto.
  - inversion H1; subst; auto. destruct H.
  - inversion H1; subst; [destruct H|]. inversion H2; subst; [destruct H|]. constructor. clear H1 H2.
    revert l' l'0 H0 H3. induction l; intros l1 l2 A B; inversion A; subst; inversion B; subst; constructor; inversion IH; subst; eauto.
  - inversion H1; subst; [destruct H|]. rename H0 into Ka, H3 into Aa. inversion H2; subst; [destruct H|]. match goal with K : forall k, In k (keys m') <-> _ |- _ => rename K into Kb end. match goal with K : forall k a b, assoc k m' = _ -> _ |- _ => rename K into Ab end. rename m' into ma, m'0 into mb.
    apply jeq_obj. { intros k. rewrite Ka. auto. }
    intros k p q Hp Hq.
    assert (I1 : In k (keys ma)) by (apply Ka; eapply assoc_Some_key; eauto). destruct (key_assoc _ _ _ I1) as [c Hc].
    rewrite Forall_forall in IH. apply (IH (k, p) (assoc_In _ _ _ _ Hp) c); cbn [snd]; eauto.
Qed.
Lemma jeq_refl : forall x, marshal x <> None -> jeq x x.
Proof. intros x H. destruct (marshal x) as [e|] eqn:E; [|congruence]. eapply marshal_jeq; eauto. Qed.
