(* A model of syntax.Regexp.Simplify of the standard library (Go's regexp/syntax/simplify.go is not in
   /repo; written from its documented behaviour).  It shows that the hypotheses of the theorems on
   generation can be met, and lets creation and generation be proved free of panics. *)
From Coq Require Import ZArith List String Bool Lia.
From Verif Require Import Base Number Regen SpecRegex RegenProps.
Import ListNotations.
Open Scope string_scope.
Open Scope Z_scope.

Definition star1 (s : regex) : regex := match s with EEmpty | EStar _ => s | _ => EStar s end.
Definition plus1 (s : regex) : regex := match s with EEmpty | EPlus _ => s | _ => EPlus s end.
Definition quest1 (s : regex) : regex := match s with EEmpty | EQuest _ => s | _ => EQuest s end.

(* (x(x(x)?)?)? with n copies of x *)
Fixpoint quests (n : nat) (s : regex) : regex :=
  match n with
  | O => EEmpty
  | S O => quest1 s
  | S m => quest1 (EConcat [s; quests m s])
  end.

Definition repeat1 (lo hi : Z) (s : regex) : regex :=
  if (lo =? 0) && (hi =? 0) then EEmpty
  else if hi =? -1 then
    if lo =? 0 then star1 s else if lo =? 1 then plus1 s
    else EConcat (repeat s (Z.to_nat (lo - 1)) ++ [plus1 s])
  else if (lo =? 1) && (hi =? 1) then s
  else if (hi <? lo) || (hi <? 0) then ENoMatch
  else if lo <? 1 then quests (Z.to_nat hi) s
  else if hi =? lo then EConcat (repeat s (Z.to_nat lo))
  else EConcat (repeat s (Z.to_nat lo) ++ [quests (Z.to_nat (hi - lo)) s]).

Fixpoint goSimplify (r : regex) : regex :=
  match r with
  | ECapture s => ECapture (goSimplify s)
  | EStar s => star1 (goSimplify s)
  | EPlus s => plus1 (goSimplify s)
  | EQuest s => quest1 (goSimplify s)
  | ERepeat lo hi s => repeat1 lo hi (goSimplify s)
  | EConcat l => EConcat (map goSimplify l)
  | EAlt l => EAlt (map goSimplify l)
  | _ => r
  end.

(* ------------------------------------------------------------------ induction over expressions *)

Lemma regex_ind' : forall P : regex -> Prop,
  P ENoMatch -> P EEmpty -> (forall rs, P (ELiteral rs)) -> (forall l, P (EClass l)) -> P EAnyNotNL -> P EAny ->
  P EBeginLine -> P EEndLine -> P EBeginText -> P EEndText -> P EWordB -> P ENoWordB ->
  (forall r, P r -> P (ECapture r)) -> (forall r, P r -> P (EStar r)) -> (forall r, P r -> P (EPlus r)) ->
  (forall r, P r -> P (EQuest r)) -> (forall lo hi r, P r -> P (ERepeat lo hi r)) ->
  (forall l, Forall P l -> P (EConcat l)) -> (forall l, Forall P l -> P (EAlt l)) -> forall r, P r.
Proof.
  intros P H1 H2 H3 H4 H5 H6 H7 H8 H9 H10 H11 H12 H13 H14 H15 H16 H17 H18 H19.
  fix IH 1. intros [| |rs|l| | | | | | | | |r|r|r|r|lo hi r|l|l].
  1-2: assumption. 1: apply H3. 1: apply H4. 1-8: assumption.
  - apply H13, IH.
  - apply H14, IH.
  - apply H15, IH.
  - apply H16, IH.
  - apply H17, IH.
  - apply H18. induction l; constructor; auto.
  - apply H19. induction l; constructor; auto.
Qed.

(* ------------------------------------------------------------------ the language is kept *)

Definition narrows (s r : regex) : Prop := forall pre mid post, matches s pre mid post -> matches r pre mid post.

Lemma inRow_mono : forall l l', Forall2 narrows l l' -> forall pre mid post, inRow l pre mid post -> inRow l' pre mid post.
Proof.
  intros l l' F. induction F as [|s r l l' H F IH]; intros pre mid post R; inversion R; subst; constructor; auto.
Qed.

Lemma Forall2_repeat : forall A B (P : A -> B -> Prop) a b n, P a b -> Forall2 P (repeat a n) (repeat b n).
Proof. induction n; cbn; constructor; auto. Qed.

Lemma row_nil : forall pre w post, inRow [] pre w post -> w = [].
Proof. intros pre w post R. inversion R. reflexivity. Qed.
Lemma row_cons : forall r l pre w post, inRow (r :: l) pre w post ->
  exists u v, w = (u ++ v)%list /\ matches r pre u (v ++ post) /\ inRow l (pre ++ u) v post.
Proof. intros r l pre w post R. inversion R. subst. eauto. Qed.
Lemma concat_row : forall l pre w post, matches (EConcat l) pre w post -> inRow l pre w post.
Proof. intros l pre w post M. inversion M. assumption. Qed.
Lemma star_row : forall r pre w post, matches (EStar r) pre w post -> exists n, inRow (repeat r n) pre w post.
Proof. intros r pre w post M. inversion M. eauto. Qed.
Lemma plus_row : forall r pre w post, matches (EPlus r) pre w post -> exists n, (1 <= n)%nat /\ inRow (repeat r n) pre w post.
Proof. intros r pre w post M. inversion M. eauto. Qed.
Lemma quest_row : forall r pre w post, matches (EQuest r) pre w post -> exists n, (n <= 1)%nat /\ inRow (repeat r n) pre w post.
Proof. intros r pre w post M. inversion M. eauto. Qed.

Lemma inRow_app : forall l1 l2 pre mid post, inRow (l1 ++ l2) pre mid post ->
  exists u v, mid = (u ++ v)%list /\ inRow l1 pre u (v ++ post) /\ inRow l2 (pre ++ u) v post.
Proof.
  induction l1 as [|r l1 IH]; intros l2 pre mid post R; cbn [app] in R.
  - exists [], mid. rewrite app_nil_r. repeat split; [constructor|assumption].
  - apply row_cons in R. destruct R as (u & v & -> & M & R). apply IH in R. destruct R as (u' & v' & -> & R1 & R2).
    exists (u ++ u')%list, v'. rewrite <- !app_assoc in *. split; [reflexivity|]. split; [|assumption].
    constructor; assumption.
Qed.

Lemma app_inRow : forall l1 l2 pre u v post, inRow l1 pre u (v ++ post) -> inRow l2 (pre ++ u) v post ->
  inRow (l1 ++ l2) pre (u ++ v) post.
Proof.
  induction l1 as [|r l1 IH]; intros l2 pre u v post R1 R2; cbn [app].
  - apply row_nil in R1. subst. rewrite app_nil_r in R2. exact R2.
  - apply row_cons in R1. destruct R1 as (u1 & u2 & -> & M & R). rewrite <- !app_assoc in *. constructor.
    + rewrite <- app_assoc. assumption.
    + apply IH; [assumption|]. rewrite <- app_assoc. exact R2.
Qed.

Lemma once : forall r pre mid post, matches r pre mid post <-> inRow [r] pre mid post.
Proof.
  split; intro H.
  - rewrite <- (app_nil_r mid). constructor; [exact H|constructor].
  - apply row_cons in H. destruct H as (u & v & -> & M & R). apply row_nil in R. subst. rewrite app_nil_r. exact M.
Qed.

Lemma star1_rows : forall s pre mid post, matches (star1 s) pre mid post -> exists n, inRow (repeat s n) pre mid post.
Proof.
  intros s pre mid post H. destruct s; cbn [star1] in H; try (apply star_row; exact H); exists 1%nat; apply once; exact H.
Qed.
Lemma plus1_rows : forall s pre mid post, matches (plus1 s) pre mid post -> exists n, (1 <= n)%nat /\ inRow (repeat s n) pre mid post.
Proof.
  intros s pre mid post H. destruct s; cbn [plus1] in H; try (apply plus_row; exact H); exists 1%nat; (split; [lia|]); apply once; exact H.
Qed.
Lemma quest1_rows : forall s pre mid post, matches (quest1 s) pre mid post -> exists n, (n <= 1)%nat /\ inRow (repeat s n) pre mid post.
Proof.
  intros s pre mid post H. destruct s; cbn [quest1] in H; try (apply quest_row; exact H); exists 1%nat; (split; [lia|]); apply once; exact H.
Qed.

Lemma quests_rows : forall n s pre mid post, matches (quests n s) pre mid post -> exists m, (m <= n)%nat /\ inRow (repeat s m) pre mid post.
Proof.
  induction n as [|n IH]; intros s pre mid post H.
  - inversion H; subst. exists O. split; [lia|constructor].
  - destruct n as [|n]; [apply quest1_rows; exact H|].
    change (quests (S (S n)) s) with (EQuest (EConcat [s; quests (S n) s])) in H. apply quest_row in H. destruct H as (k & Hk & R).
    destruct k as [|[|]]; [| |lia]; cbn [repeat] in R.
    + exists O. split; [lia|exact R].
    + apply once in R. apply concat_row in R. apply row_cons in R. destruct R as (u & v & -> & M & R). apply once in R.
      apply IH in R. destruct R as (m & Hm & R). exists (S m). split; [lia|]. constructor; assumption.
Qed.

Lemma repeat1_rows : forall lo hi s pre mid post, matches (repeat1 lo hi s) pre mid post ->
  exists n, lo <= Z.of_nat n /\ (hi = -1 \/ Z.of_nat n <= hi) /\ inRow (repeat s n) pre mid post.
Proof.
  intros lo hi s pre mid post H. unfold repeat1 in H.
  destruct ((lo =? 0) && (hi =? 0)) eqn:C0.
  { apply andb_true_iff in C0. destruct C0 as [C1 C2]. apply Z.eqb_eq in C1, C2. subst.
    inversion H; subst. exists O. repeat split; [lia|right; lia|constructor]. }
  destruct (Z.eqb_spec hi (-1)).
  - destruct (Z.eqb_spec lo 0); [|destruct (Z.eqb_spec lo 1)].
    + apply star1_rows in H. destruct H as (n1 & H). exists n1. repeat split; [lia|tauto|assumption].
    + apply plus1_rows in H. destruct H as (n1 & N1 & H). exists n1. repeat split; [lia|tauto|assumption].
    + apply concat_row, inRow_app in H. destruct H as (u & v & -> & R1 & R2). apply once in R2.
      apply plus1_rows in R2. destruct R2 as (n2 & N1 & R2). exists (Z.to_nat (lo - 1) + n2)%nat.
      repeat split; [lia|tauto|]. rewrite repeat_app. apply app_inRow; assumption.
  - destruct ((lo =? 1) && (hi =? 1)) eqn:C1.
    { apply andb_true_iff in C1. destruct C1 as [C1 C2]. apply Z.eqb_eq in C1, C2. subst.
      exists 1%nat. repeat split; [lia|right; lia|]. apply once. exact H. }
    destruct (Z.ltb_spec hi lo); [inversion H|]. destruct (Z.ltb_spec hi 0); [inversion H|]. cbn [orb] in H. destruct (Z.ltb_spec lo 1); [|destruct (Z.eqb_spec hi lo)].
    + apply quests_rows in H. destruct H as (m & Hm & H). exists m. repeat split; [lia|right; lia|assumption].
    + apply concat_row in H. eexists. repeat split; [| |exact H]; lia.
    + apply concat_row, inRow_app in H. destruct H as (u & v & -> & R1 & R2). apply once in R2.
      apply quests_rows in R2. destruct R2 as (m & Hm & R2). exists (Z.to_nat lo + m)%nat.
      repeat split; [lia|right; lia|]. rewrite repeat_app. apply app_inRow; assumption.
Qed.

Lemma narrows_repeat : forall s r n pre mid post, narrows s r -> inRow (repeat s n) pre mid post -> inRow (repeat r n) pre mid post.
Proof. intros. eapply inRow_mono; [|eassumption]. apply Forall2_repeat. assumption. Qed.

Lemma Forall2_map_l : forall (f : regex -> regex) l, Forall (fun r => narrows (f r) r) l -> Forall2 narrows (map f l) l.
Proof. intros f l F. induction F; cbn; constructor; auto. Qed.

Lemma goSimplify_narrows : forall r, narrows (goSimplify r) r.
Proof.
  induction r using regex_ind'; intros pre mid post M; try exact M; cbn [goSimplify] in M.
  - inversion M; subst. constructor. auto.
  - apply star1_rows in M. destruct M as (n & R). econstructor. eapply narrows_repeat; eassumption.
  - apply plus1_rows in M. destruct M as (n & N & R). econstructor; [exact N|]. eapply narrows_repeat; eassumption.
  - apply quest1_rows in M. destruct M as (n & N & R). econstructor; [exact N|]. eapply narrows_repeat; eassumption.
  - apply repeat1_rows in M. destruct M as (n & N1 & N2 & R). econstructor; [exact N1|exact N2|]. eapply narrows_repeat; eassumption.
  - apply concat_row in M. constructor. eapply inRow_mono; [|exact M]. apply Forall2_map_l. assumption.
  - inversion M as [| | | | | | | | | | | | | | | | |l0 r0 p0 m0 q0 J K]; subst. apply in_map_iff in J. destruct J as (x & <- & I). econstructor; [exact I|].
    rewrite Forall_forall in H. apply (H _ I). assumption.
Qed.

(* ------------------------------------------------------------------ anchors and runes stay in place *)

Lemma anchors_weaken : forall r b e b' e', (b = true -> b' = true) -> (e = true -> e' = true) ->
  anchorsAtEnds b e r = true -> anchorsAtEnds b' e' r = true.
Proof.
  induction r using regex_ind'; intros b e b' e' Hb He A; cbn in A |- *; auto; try discriminate; try (eapply IHr; eassumption).
  - revert b b' Hb A. induction H as [|x l Hx F IH]; intros b b' Hb A; [reflexivity|].
    apply andb_true_iff in A. destruct A as [A1 A2]. apply andb_true_iff. split.
    + eapply Hx; [| |exact A1]; [assumption|]. intro X. apply andb_true_iff in X. destruct X as [X1 X2]. rewrite (He X1), X2. reflexivity.
    + eapply IH; [|exact A2]. intro X. apply andb_true_iff in X. destruct X as [X1 X2]. rewrite (Hb X1), X2. reflexivity.
  - rewrite forallb_forall in *. rewrite Forall_forall in H. intros x I. eapply H; eauto.
Qed.

Lemma anchors_free : forall r b e, anchorsAtEnds false false r = true -> anchorsAtEnds b e r = true.
Proof. intros. eapply anchors_weaken; [| |eassumption]; discriminate. Qed.

Lemma concat_free : forall l b e, Forall (fun r => anchorsAtEnds false false r = true) l -> anchorsAtEnds b e (EConcat l) = true.
Proof.
  intros l b e F. cbn. revert b. induction F as [|x l Hx F IH]; intros b; [reflexivity|].
  apply andb_true_iff. split; [apply anchors_free; assumption|apply IH].
Qed.

Lemma star1_anchors : forall s b e, anchorsAtEnds false false s = true -> anchorsAtEnds b e (star1 s) = true.
Proof. intros s b e A. destruct s; cbn [star1]; try exact A; apply anchors_free; exact A. Qed.
Lemma plus1_anchors : forall s b e, anchorsAtEnds false false s = true -> anchorsAtEnds b e (plus1 s) = true.
Proof. intros s b e A. destruct s; cbn [plus1]; try exact A; apply anchors_free; exact A. Qed.
Lemma quest1_anchors : forall s b e, anchorsAtEnds b e s = true -> anchorsAtEnds b e (quest1 s) = true.
Proof. intros s b e A. destruct s; exact A. Qed.
Lemma quests_anchors : forall n s b e, anchorsAtEnds false false s = true -> anchorsAtEnds b e (quests n s) = true.
Proof.
  induction n as [|[|n] IH]; intros s b e A; [reflexivity|apply quest1_anchors, anchors_free, A|].
  apply quest1_anchors, concat_free. constructor; [exact A|constructor; [apply IH; exact A|constructor]].
Qed.

Lemma Forall_repeat : forall A (P : A -> Prop) x n, P x -> Forall P (repeat x n).
Proof. induction n; cbn; constructor; auto. Qed.

Lemma repeat1_anchors : forall lo hi s b e, anchorsAtEnds false false s = true -> anchorsAtEnds b e (repeat1 lo hi s) = true.
Proof.
  intros lo hi s b e A. unfold repeat1.
  repeat match goal with |- context [if ?c then _ else _] => destruct c end;
    try reflexivity; try (apply star1_anchors; assumption); try (apply plus1_anchors; assumption);
    try (apply quests_anchors; assumption); try (apply anchors_free; assumption);
    apply concat_free; try apply Forall_app; try split; try (apply Forall_repeat; assumption);
    (constructor; [|constructor]); auto using plus1_anchors, quests_anchors.
Qed.

Lemma widthless_simplify : forall r, widthless r = true -> goSimplify r = r.
Proof. intros []; try discriminate; reflexivity. Qed.

Lemma goSimplify_anchors : forall r b e, anchorsAtEnds b e r = true -> anchorsAtEnds b e (goSimplify r) = true.
Proof.
  induction r using regex_ind'; intros b e A; try exact A; cbn [goSimplify].
  - apply IHr. exact A.
  - apply star1_anchors, IHr. exact A.
  - apply plus1_anchors, IHr. exact A.
  - apply quest1_anchors, IHr. exact A.
  - apply repeat1_anchors, IHr. exact A.
  - cbn in A |- *. revert b A. induction H as [|x l Hx F IH]; intros b A; [reflexivity|]. cbn [map].
    assert (W : forall y, widthless y = true -> widthless (goSimplify y) = true) by (intros y Y; rewrite widthless_simplify; assumption).
    apply andb_true_iff in A. destruct A as [A1 A2]. apply andb_true_iff. split.
    + eapply anchors_weaken; [| |apply Hx; exact A1]; [auto|]. intro X. apply andb_true_iff in X. destruct X as [X1 X2]. rewrite X1. cbn [andb].
      rewrite forallb_forall in *. intros y I. apply in_map_iff in I. destruct I as (z & <- & I). auto.
    + assert (Q : forall c d, (c = true -> d = true) -> (fix go (st : bool) (l0 : list regex) {struct l0} : bool :=
                match l0 with [] => true | x0 :: r => anchorsAtEnds st (e && forallb widthless r) x0 && go (st && widthless x0) r end) c (map goSimplify l) = true ->
              (fix go (st : bool) (l0 : list regex) {struct l0} : bool :=
                match l0 with [] => true | x0 :: r => anchorsAtEnds st (e && forallb widthless r) x0 && go (st && widthless x0) r end) d (map goSimplify l) = true).
      { intros c d Hcd X. change (anchorsAtEnds d e (EConcat (map goSimplify l)) = true). eapply anchors_weaken; [| |exact X]; auto. }
      eapply Q; [|apply IH; exact A2]. intro X. apply andb_true_iff in X. destruct X as [X1 X2]. rewrite X1, (W _ X2). reflexivity.
  - cbn in A |- *. rewrite forallb_forall in *. rewrite Forall_forall in H. intros y I. apply in_map_iff in I. destruct I as (z & <- & I). auto.
Qed.

Lemma clean_list : forall l, fold_right (fun x P => cleanText x /\ P) True l <-> Forall cleanText l.
Proof.
  induction l; cbn; split; intro H; auto; [constructor; tauto|]. inversion H; subst. tauto.
Qed.
Lemma clean_concat : forall l, Forall cleanText l -> cleanText (EConcat l).
Proof. intros l F. apply (proj2 (clean_list l) F). Qed.

Lemma star1_clean : forall s, cleanText s -> cleanText (star1 s).
Proof. intros [] C; exact C. Qed.
Lemma plus1_clean : forall s, cleanText s -> cleanText (plus1 s).
Proof. intros [] C; exact C. Qed.
Lemma quest1_clean : forall s, cleanText s -> cleanText (quest1 s).
Proof. intros [] C; exact C. Qed.
Lemma quests_clean : forall n s, cleanText s -> cleanText (quests n s).
Proof.
  induction n as [|[|n] IH]; intros s C; [exact I|apply quest1_clean, C|].
  apply quest1_clean, clean_concat. constructor; [exact C|constructor; [apply IH; exact C|constructor]].
Qed.
Lemma repeat1_clean : forall lo hi s, cleanText s -> cleanText (repeat1 lo hi s).
Proof.
  intros lo hi s A. unfold repeat1.
  repeat match goal with |- context [if ?c then _ else _] => destruct c end;
    try exact I; auto using star1_clean, plus1_clean, quests_clean;
    apply clean_concat; try apply Forall_app; try split; try (apply Forall_repeat; assumption);
    (constructor; [|constructor]); auto using plus1_clean, quests_clean.
Qed.

Lemma goSimplify_clean : forall r, cleanText r -> cleanText (goSimplify r).
Proof.
  induction r using regex_ind'; intros C; try exact C; cbn [goSimplify].
  - apply IHr. exact C.
  - apply star1_clean, IHr. exact C.
  - apply plus1_clean, IHr. exact C.
  - apply quest1_clean, IHr. exact C.
  - apply repeat1_clean, IHr. apply C.
  - apply clean_concat. apply clean_list in C. rewrite Forall_forall in *. intros y I. apply in_map_iff in I. destruct I as (z & <- & I). auto.
  - apply (proj2 (clean_list (map goSimplify l))). apply clean_list in C. rewrite Forall_forall in *. intros y I. apply in_map_iff in I. destruct I as (z & <- & I). auto.
Qed.

Lemma goSimplify_ok : simplifies goSimplify.
Proof. constructor; [exact goSimplify_narrows|exact goSimplify_anchors|exact goSimplify_clean]. Qed.

(* ------------------------------------------------------------------ creation and generation succeed *)

Fixpoint simple (r : regex) : Prop :=
  match r with
  | ERepeat _ _ _ => False
  | ECapture s => simple s
  | EStar s => simple s /\ star1 s = EStar s
  | EPlus s => simple s /\ plus1 s = EPlus s
  | EQuest s => simple s /\ quest1 s = EQuest s
  | EConcat l | EAlt l => fold_right (fun x P => simple x /\ P) True l
  | _ => True
  end.

Lemma all_list : forall (Q : regex -> Prop) l, fold_right (fun x P => Q x /\ P) True l <-> Forall Q l.
Proof. induction l; cbn; split; intro H; auto; [constructor; tauto|]. inversion H; subst. tauto. Qed.

Lemma simple_fix : forall r, simple r -> goSimplify r = r.
Proof.
  induction r using regex_ind'; intros S; try reflexivity; cbn in S |- *.
  - rewrite IHr by assumption. reflexivity.
  - destruct S as [S1 S2]. rewrite IHr by assumption. assumption.
  - destruct S as [S1 S2]. rewrite IHr by assumption. assumption.
  - destruct S as [S1 S2]. rewrite IHr by assumption. assumption.
  - destruct S.
  - f_equal. apply (all_list simple) in S. induction H as [|x l Hx F IH]; [reflexivity|]. inversion S; subst. cbn. rewrite Hx, IH by assumption. reflexivity.
  - f_equal. apply (all_list simple) in S. induction H as [|x l Hx F IH]; [reflexivity|]. inversion S; subst. cbn. rewrite Hx, IH by assumption. reflexivity.
Qed.

Lemma star1_simple : forall s, simple s -> simple (star1 s).
Proof. intros [] S; cbn in *; tauto. Qed.
Lemma plus1_simple : forall s, simple s -> simple (plus1 s).
Proof. intros [] S; cbn in *; tauto. Qed.
Lemma quest1_simple : forall s, simple s -> simple (quest1 s).
Proof. intros [] S; cbn in *; tauto. Qed.
Lemma concat_simple : forall l, Forall simple l -> simple (EConcat l).
Proof. intros l F. apply (proj2 (all_list simple l) F). Qed.
Lemma quests_simple : forall n s, simple s -> simple (quests n s).
Proof.
  induction n as [|[|n] IH]; intros s S; [exact I|apply quest1_simple, S|].
  apply quest1_simple, concat_simple. constructor; [exact S|constructor; [apply IH; exact S|constructor]].
Qed.
Lemma repeat1_simple : forall lo hi s, simple s -> simple (repeat1 lo hi s).
Proof.
  intros lo hi s A. unfold repeat1.
  repeat match goal with |- context [if ?c then _ else _] => destruct c end;
    try exact I; auto using star1_simple, plus1_simple, quests_simple;
    apply concat_simple; try apply Forall_app; try split; try (apply Forall_repeat; assumption);
    (constructor; [|constructor]); auto using plus1_simple, quests_simple.
Qed.
Lemma goSimplify_simple : forall r, simple (goSimplify r).
Proof.
  induction r using regex_ind'; try exact I; cbn [goSimplify];
    auto using star1_simple, plus1_simple, quest1_simple, repeat1_simple.
  - apply concat_simple. rewrite Forall_forall in *. intros y J. apply in_map_iff in J. destruct J as (z & <- & J). auto.
  - apply (proj2 (all_list simple _)). rewrite Forall_forall in *. intros y J. apply in_map_iff in J. destruct J as (z & <- & J). auto.
Qed.

Section Drawable.
Variable ascii : bool.
Lemma star1_drawable : forall s, drawable ascii s -> drawable ascii (star1 s).
Proof. intros [] S; exact S. Qed.
Lemma plus1_drawable : forall s, drawable ascii s -> drawable ascii (plus1 s).
Proof. intros [] S; exact S. Qed.
Lemma quest1_drawable : forall s, drawable ascii s -> drawable ascii (quest1 s).
Proof. intros [] S; exact S. Qed.
Lemma concat_drawable : forall l, Forall (drawable ascii) l -> drawable ascii (EConcat l).
Proof. intros l F. apply (proj2 (all_list _ l) F). Qed.
Lemma quests_drawable : forall n s, drawable ascii s -> drawable ascii (quests n s).
Proof.
  induction n as [|[|n] IH]; intros s S; [exact I|apply quest1_drawable, S|].
  apply quest1_drawable, concat_drawable. constructor; [exact S|constructor; [apply IH; exact S|constructor]].
Qed.
Lemma repeat1_drawable : forall lo hi s, 0 <= lo -> hi = -1 \/ lo <= hi -> drawable ascii s -> drawable ascii (repeat1 lo hi s).
Proof.
  intros lo hi s B1 B2 A. unfold repeat1.
  destruct ((lo =? 0) && (hi =? 0)); [exact I|].
  destruct (Z.eqb_spec hi (-1)).
  - destruct (lo =? 0); [apply star1_drawable, A|]. destruct (lo =? 1); [apply plus1_drawable, A|].
    apply concat_drawable, Forall_app. split; [apply Forall_repeat; assumption|]. constructor; [apply plus1_drawable, A|constructor].
  - destruct ((lo =? 1) && (hi =? 1)); [exact A|].
    destruct (Z.ltb_spec hi lo); [lia|]. destruct (Z.ltb_spec hi 0); [lia|]. cbn [orb].
    destruct (lo <? 1); [apply quests_drawable, A|]. destruct (hi =? lo); [apply concat_drawable, Forall_repeat, A|].
    apply concat_drawable, Forall_app. split; [apply Forall_repeat; assumption|]. constructor; [apply quests_drawable, A|constructor].
Qed.
Lemma goSimplify_drawable : forall r, drawable ascii r -> drawable ascii (goSimplify r).
Proof.
  induction r using regex_ind'; intros D; try exact D; cbn [goSimplify].
  - apply IHr, D.
  - apply star1_drawable, IHr, D.
  - apply plus1_drawable, IHr, D.
  - apply quest1_drawable, IHr, D.
  - destruct D as (D1 & D2 & D3). apply repeat1_drawable; auto.
  - apply concat_drawable. apply (all_list (drawable ascii)) in D. rewrite Forall_forall in *. intros y J. apply in_map_iff in J. destruct J as (z & <- & J). auto.
  - destruct D as [D0 D]. split; [destruct l; [congruence|discriminate]|]. apply (proj2 (all_list _ _)). apply (all_list (drawable ascii)) in D.
    rewrite Forall_forall in *. intros y J. apply in_map_iff in J. destruct J as (z & <- & J). auto.
Qed.
End Drawable.

Fixpoint height (r : regex) : nat :=
  match r with
  | ECapture s | EStar s | EPlus s | EQuest s | ERepeat _ _ s => S (height s)
  | EConcat l | EAlt l => S (fold_right (fun x n => Nat.max (height x) n) O l)
  | _ => 1%nat
  end.

Section Total.
Variable a : rargs.
Variable rd : nat -> Z -> Z.
Hypothesis Ha : 0 <= aMin a <= aMax a /\ 1 <= aMax a.
Hypothesis Hrd : forall k n, 1 <= n -> 0 <= rd k n < n.

Definition productive (g : rgen) : Prop := forall k, exists w k', rgenerate a rd g k = Ok (w, k').

Lemma intn_total : forall n k, 1 <= n -> exists x, intn rd n k = Ok x /\ 0 <= fst x < n.
Proof.
  intros n k H. unfold intn. destruct (Z.ltb_spec n 1); [lia|]. eexists. split; [reflexivity|]. cbn. apply Hrd. lia.
Qed.

Lemma rep_total : forall lo hi g, lo <= hi -> productive g -> productive (RRep lo hi g).
Proof.
  intros lo hi g B P k. cbn [rgenerate]. destruct (intn_total (hi - lo + 1) k ltac:(lia)) as (x & -> & _). cbn [bind].
  generalize (snd x). induction (Z.to_nat (lo + fst x)) as [|n IH]; intro k1; cbn; [eauto|].
  destruct (P k1) as (u & k2 & ->). cbn [bind fst snd]. destruct (IH k2) as (v & k3 & ->). cbn. eauto.
Qed.

Lemma cat_total : forall gs, Forall productive gs -> productive (RCat gs).
Proof.
  intros gs F k. cbn [rgenerate]. revert k. induction F as [|g gs P F IH]; intro k; cbn; [eauto|].
  destruct (P k) as (u & k2 & ->). cbn [bind fst snd]. destruct (IH k2) as (v & k3 & ->). cbn. eauto.
Qed.

Lemma alt_total : forall gs, gs <> [] -> Forall productive gs -> productive (RAlt gs).
Proof.
  intros gs N F k. cbn [rgenerate].
  destruct (intn_total (Z.of_nat (Datatypes.length gs)) k) as (x & -> & B); [destruct gs; [congruence|cbn; lia]|]. cbn [bind].
  clear N. revert B. generalize (fst x). generalize (snd x). clear x k.
  induction F as [|g gs P F IH]; intros k i B; [cbn in B; lia|]. cbn [pickGen]. destruct (Z.eqb_spec i 0); [apply P|].
  apply IH. cbn [Datatypes.length] in B. lia.
Qed.

Lemma class_total : forall l, l <> [] -> normal 0 l -> ~ In (0, 0) l -> productive (RClass (map sized l)).
Proof.
  intros l NE N Z0 k. cbn [rgenerate]. rewrite (total_sized _ N Z0).
  assert (P : 1 <= sizeUpTo 1114111 l).
  { destruct l as [|[lo hi] r]; [congruence|]. rewrite sizeUpTo_cons. rewrite normal_cons in N.
    pose proof (sizeUpTo_nonneg 1114111 r).
    assert (1 <= hi). { destruct (Z.eq_dec hi 0); [|lia]. exfalso. apply Z0. left. f_equal; lia. } lia. }
  destruct (intn_total (sizeUpTo 1114111 l) k P) as (x & -> & B). cbn [bind].
  destruct (Z.ltb_spec 100000 (sizeUpTo 1114111 l)).
  - destruct (intn_total 93 (snd x) ltac:(lia)) as (z & -> & B2). cbn [bind fst snd].
    destruct (runeAt_total l 0 ltac:(lia) N Z0 (fst z + 32) ltac:(lia)) as (c & ->). cbn [bind]. eauto.
  - cbn [bind]. destruct (runeAt_total l 0 ltac:(lia) N Z0 (fst x) B) as (c & ->). cbn [bind]. eauto.
Qed.

Lemma newGens_total : forall f l, Forall (fun r => exists g, f r = Ok (Good g) /\ productive g) l ->
  exists gs, newGens f l = Ok (Good gs) /\ Forall productive gs /\ (l <> [] -> gs <> []).
Proof.
  intros f l F. induction F as [|r l (g & E & P) F (gs & E2 & P2 & _)]; cbn.
  - exists []. repeat split; auto.
  - rewrite E. cbn [bind]. rewrite E2. cbn. exists (g :: gs). repeat split; auto. discriminate.
Qed.

Lemma newGen_total : forall f r, simple r -> drawable (aAscii a) r -> (height r <= f)%nat ->
  exists g, newGen goSimplify a f r = Ok (Good g) /\ productive g.
Proof.
  induction f as [|f IH]; intros r S D H; [destruct r; cbn in H; lia|].
  cbn [newGen]. rewrite (simple_fix _ S).
  assert (TX : forall rs, productive (RText rs)) by (intros rs k; cbn; eauto).
  assert (REP : forall s lo hi, simple s -> drawable (aAscii a) s -> (height s <= f)%nat ->
     (if lo =? -1 then aMin a else lo) <= (if hi =? -1 then aMax a else hi) ->
     exists g, repGen a (newGen goSimplify a f) s lo hi = Ok (Good g) /\ productive g).
  { intros s lo hi S1 D1 H1 B. unfold repGen. destruct (IH s S1 D1 H1) as (g & -> & P). cbn [bind].
    eexists. split; [reflexivity|]. apply rep_total; assumption. }
  assert (LIST : forall l, Forall simple l -> Forall (drawable (aAscii a)) l -> (fold_right (fun x n => Nat.max (height x) n) O l <= f)%nat ->
     Forall (fun r => exists g, newGen goSimplify a f r = Ok (Good g) /\ productive g) l).
  { intros l F1 F2 B. induction F1 as [|x l Sx F1 IHl]; [constructor|]. inversion F2; subst. cbn in B.
    constructor; [apply IH; try assumption; lia|apply IHl; [assumption|lia]]. }
  destruct r; cbn in S, D, H; try (eexists; split; [reflexivity|apply TX]); try contradiction.
  - destruct D as (D1 & D2 & D3). rewrite (parseClass_sized _ 0) by (assumption || lia). cbn [bind].
    eexists. split; [reflexivity|]. apply class_total; assumption.
  - rewrite D. cbn [newRange]. change (newRange 32 93) with (Ok (32, 62)). cbn [bind].
    eexists. split; [reflexivity|]. change [(32, 62)] with (map sized [(32, 93)]). apply class_total; [discriminate| |].
    + cbn; lia.
    + intros [X|[]]. discriminate.
  - eexists. split; [reflexivity|]. intro k. cbn [rgenerate].
    destruct (aAscii a).
    + destruct (intn_total 92 k ltac:(lia)) as (x & -> & _). cbn. eauto.
    + destruct (intn_total (2 ^ 31) k ltac:(lia)) as (x & -> & _). cbn. eauto.
  - apply IH; try assumption; lia.
  - destruct S. apply REP; try assumption; [lia|]. change (-1 =? -1) with true. cbv iota. lia.
  - destruct S. apply REP; try assumption; [lia|]. change (-1 =? -1) with true. change (1 =? -1) with false. cbv iota. lia.
  - destruct S. apply REP; try assumption; [lia|]. change (0 =? -1) with false. change (1 =? -1) with false. cbv iota. lia.
  - apply (all_list simple) in S. apply (all_list (drawable (aAscii a))) in D.
    destruct (newGens_total _ _ (LIST l S D ltac:(lia))) as (gs & -> & P & _). cbn [bind]. eexists. split; [reflexivity|]. apply cat_total, P.
  - destruct D as [D0 D]. apply (all_list simple) in S. apply (all_list (drawable (aAscii a))) in D.
    destruct (newGens_total _ _ (LIST l S D ltac:(lia))) as (gs & -> & P & N). cbn [bind]. eexists. split; [reflexivity|]. apply alt_total; auto.
Qed.

Lemma newGen_succeeds : forall r, drawable (aAscii a) r -> exists f g, newGen goSimplify a f r = Ok (Good g) /\
  forall k, exists w k', rgenerate a rd g k = Ok (w, k').
Proof.
  intros r D.
  destruct (newGen_total (S (height (goSimplify r))) (goSimplify r) (goSimplify_simple r) (goSimplify_drawable _ _ D) ltac:(lia)) as (g & E & P).
  exists (S (height (goSimplify r))), g. split; [|exact P].
  cbn [newGen] in E |- *. rewrite (simple_fix _ (goSimplify_simple r)) in E. exact E.
Qed.
End Total.
