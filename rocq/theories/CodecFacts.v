(* Writing a decoded node and reading it back: the proofs behind C43. *)
From Coq Require Import ZArith List String Bool Lia Reals Psatz.
From Flocq Require Import Core BinarySingleNaN.
From Verif Require Import Base Float64 Json Schema NodeFacts Codec FloatFacts.
Import ListNotations.
Open Scope string_scope.
Open Scope Z_scope.

Lemma finite_is_finite : forall f, finite f = is_finite f.
Proof. destruct f; reflexivity. Qed.

Lemma whole_value : forall f, wholeSmall f = true -> fofZ (Btrunc f) = f /\ finite f = true.
Proof.
  intros f H. destruct f as [s| | |s m e B]; simpl in H; try discriminate.
  - destruct s; try discriminate. split; [|reflexivity]. apply B2SF_inj. vm_compute. reflexivity.
  - split; [|reflexivity]. apply andb_prop in H as [H _].
    remember (B754_finite s m e B) as f eqn:Ef.
    assert (Ff : is_finite f = true) by (subst; reflexivity).
    assert (V : B2R (ftrunc f) = B2R f).
    { destruct (Bnearbyint_correct 53 1024 emax1024 mode_ZR f) as (_ & F2 & _).
      apply feqb_eq in H; auto. unfold fin, ftrunc. now rewrite F2. }
    destruct (Bnearbyint_correct 53 1024 emax1024 mode_ZR f) as (V2 & _ & _).
    unfold ftrunc in V. rewrite V2 in V.
    assert (I : IZR (Btrunc f) = B2R f) by (rewrite Btrunc_correct; [exact V | exact emax1024]).
    destruct (fofZ_correct (Btrunc f)) as [W1 W2].
    { rewrite I. rewrite rnd_id by apply val_format. apply abs_B2R_lt_emax. }
    rewrite I, rnd_id in W1 by apply val_format.
    apply B2R_inj.
    + destruct (fofZ (Btrunc f)) as [s'| | |] eqn:E; try discriminate; auto.
      exfalso. simpl in W1. rewrite Ef in W1. simpl in W1. unfold F2R in W1. simpl in W1.
      assert (IZR (cond_Zopp s (Zpos m)) <> 0)%R. { apply IZR_neq. destruct s; simpl; lia. }
      assert (0 < bpow radix2 e)%R by apply bpow_gt_0. nra.
    + rewrite Ef; reflexivity.
    + exact W1.
Qed.

Lemma decFloat_enc : forall f, finite f = true -> decFloat (encFloat f) = Some f.
Proof.
  intros f H. unfold encFloat. destruct (wholeSmall f) eqn:E.
  - apply whole_value in E as [E _]. simpl. now rewrite E, H.
  - simpl. now rewrite H.
Qed.

Lemma encFloat_not_null : forall f, encFloat f <> JNull.
Proof. intros. unfold encFloat. destruct (wholeSmall f); discriminate. Qed.

Lemma decInt_enc : forall z, (-2^63 <= z < 2^63) -> decInt (JInt z) = Some z.
Proof.
  intros. unfold decInt. replace (- 2^63 <=? z) with true by (symmetry; apply Z.leb_le; lia).
  replace (z <? 2^63) with true by (symmetry; apply Z.ltb_lt; lia). reflexivity.
Qed.

(* interface{} values as decoding leaves them: no int, only finite numbers *)
Fixpoint plainAny (j : json) : Prop :=
  match j with
  | JInt _ => False
  | JFloat f => finite f = true
  | JArr l => (fix go (l : list json) : Prop := match l with [] => True | x :: r => plainAny x /\ go r end) l
  | JObj m => (fix go (m : list (string * json)) : Prop := match m with [] => True | (_, x) :: r => plainAny x /\ go r end) m
  | _ => True
  end.

Lemma decAny_enc : forall j, plainAny j -> decAny (encAny j) = Some j.
Proof.
  induction j using json_ind'; intros Hp; try reflexivity.
  - destruct Hp.
  - simpl in Hp. assert (X := decFloat_enc f Hp). unfold encAny, encFloat in *. destruct (wholeSmall f); simpl in *.
    + destruct (finite (fofZ (Btrunc f))); congruence.
    + destruct (finite f); congruence.
  - simpl. induction H; simpl in *; [reflexivity|]. destruct Hp as [Hp1 Hp2]. specialize (IHForall Hp2). rewrite H by exact Hp1.
    match type of IHForall with context [match ?g (map encAny l) with _ => _ end] => destruct (g (map encAny l)) end; congruence.
  - simpl. induction H; [reflexivity|]. destruct x as [k x]. cbn [fst snd] in *. destruct Hp as [Hp1 Hp2]. specialize (IHForall Hp2). cbn [map fst snd]. rewrite H by exact Hp1.
    match type of IHForall with match ?g with _ => _ end = _ => destruct g end; congruence.
Qed.

Lemma decAny_plain : forall j v, decAny j = Some v -> plainAny v.
Proof.
  induction j using json_ind'; intros v Hd; simpl in Hd; try (injection Hd as <-; exact I).
  - destruct (finite (fofZ z)) eqn:E; inversion Hd; subst. exact E.
  - destruct (finite f) eqn:E; inversion Hd; subst. exact E.
  - revert v Hd. induction H; intros v Hd; [injection Hd as <-; exact I|].
    destruct (decAny x) eqn:E1; [|discriminate].
    match type of IHForall with context [match ?g with _ => _ end] => destruct g eqn:E2; [|discriminate] end.
    injection Hd as <-. split; [eapply H; eauto | apply (IHForall _ eq_refl)].
  - revert v Hd. induction H; intros v Hd; [injection Hd as <-; exact I|]. destruct x as [k x].
    destruct (decAny x) eqn:E1; [|discriminate].
    match type of IHForall with context [match ?g with _ => _ end] => destruct g eqn:E2; [|discriminate] end.
    injection Hd as <-. split; [eapply H; eauto | apply (IHForall _ eq_refl)].
Qed.

Lemma allSome_map : forall {A B} (f : A -> option B) (g : B -> A) l,
  (forall b, In b l -> f (g b) = Some b) -> allSome f (map g l) = Some l.
Proof. induction l; intros; simpl; auto. rewrite H by (left; auto). simpl in IHl. rewrite IHl; auto. intros; apply H; now right. Qed.

Lemma allSomeKV_map : forall {A B} (f : A -> option B) (g : B -> A) l,
  (forall b, In b (map snd l) -> f (g b) = Some b) ->
  allSomeKV f (map (fun p => match p with (k, x) => (k, g x) end) l) = Some l.
Proof.
  induction l as [|[k x] l]; intros; simpl; auto. rewrite H by (left; auto). simpl in IHl. rewrite IHl; auto. intros; apply H; now right.
Qed.

Lemma allSome_cons : forall {A B} (f : A -> option B) x r,
  allSome f (x :: r) = match f x, allSome f r with Some a, Some b => Some (a :: b) | _, _ => None end.
Proof. reflexivity. Qed.
Lemma allSomeKV_cons : forall {A B} (f : A -> option B) k x r,
  allSomeKV f ((k, x) :: r) = match f x, allSomeKV f r with Some a, Some b => Some ((k, a) :: b) | _, _ => None end.
Proof. reflexivity. Qed.

Lemma allSome_In : forall {A B} (f : A -> option B) l l', allSome f l = Some l' -> forall b, In b l' -> exists a, In a l /\ f a = Some b.
Proof.
  induction l; intros l' H b Hb.
  - injection H as <-. destruct Hb.
  - rewrite allSome_cons in H. destruct (f a) eqn:E; [|discriminate]. destruct (allSome f l) eqn:E2; [|discriminate].
    injection H as <-. destruct Hb as [<-|Hb]; [exists a; split; [now left | auto]|].
    destruct (IHl _ eq_refl b Hb) as (a' & Ha & Hf). exists a'; split; [now right | auto].
Qed.

Lemma allSomeKV_In : forall {A B} (f : A -> option B) l l', allSomeKV f l = Some l' ->
  forall b, In b (map snd l') -> exists a, In a (map snd l) /\ f a = Some b.
Proof.
  induction l as [|[k x] l]; intros l' H b Hb.
  - injection H as <-. destruct Hb.
  - rewrite allSomeKV_cons in H. destruct (f x) eqn:E; [|discriminate]. destruct (allSomeKV f l) eqn:E2; [|discriminate].
    injection H as <-. destruct Hb as [<-|Hb]; [exists x; split; [now left | auto]|].
    destruct (IHl _ eq_refl b Hb) as (a' & Ha & Hf). exists a'; split; [now right | auto].
Qed.

Definition decMembers (m : list (string * json)) : list (string * dval) :=
  map (fun kv => (fst kv, decField decodeNode (fst kv) (snd kv))) m.

Lemma decodeNode_obj : forall m, decodeNode (JObj m) = assemble (decMembers m).
Proof.
  intros. unfold decMembers. simpl. f_equal. induction m as [|[k v] m]; simpl; auto. now rewrite IHm.
Qed.

Lemma assoc_decMembers : forall k m, assoc k (decMembers m) = match assoc k m with Some v => Some (decField decodeNode k v) | None => None end.
Proof.
  intros. unfold decMembers. induction m as [|[k' v] m]; simpl; auto.
  destruct (String.eqb k k') eqn:E; auto. apply String.eqb_eq in E. now subst.
Qed.

(* a table of optional members *)
Definition members (t : list (string * option json)) : list (string * json) := flat_map (fun p => omem (fst p) (snd p)) t.

Lemma assoc_members_none : forall k t, ~ In k (map fst t) -> assoc k (members t) = None.
Proof.
  induction t as [|[k' o] t]; simpl; intros H; auto.
  destruct o as [j|]; simpl; [|apply IHt; tauto].
  destruct (String.eqb k k') eqn:E; [apply String.eqb_eq in E; subst; tauto | apply IHt; tauto].
Qed.

Lemma assoc_members : forall k t, NoDup (map fst t) -> assoc k (members t) = match assoc k t with Some o => o | None => None end.
Proof.
  induction t as [|[k' o] t]; simpl; intros H; auto. inversion H; subst.
  destruct (String.eqb k k') eqn:E.
  - apply String.eqb_eq in E. subst. destruct o as [j|]; simpl; [now rewrite String.eqb_refl|]. now apply assoc_members_none.
  - destruct o as [j|]; simpl; [rewrite E|]; auto.
Qed.
