(* What the collection of errors shows. *)
From Coq Require Import List String Bool Permutation Lia PeanoNat.
From Verif Require Import Base Schema PState Errors SpecParse.
Import ListNotations.
Open Scope string_scope.

(* ---- the table ---- *)
Definition errorOf (t : errorTable) (doc path : string) : option string := match assoc doc t with Some m => assoc path m | None => None end.
Lemma add_same : forall doc path tag t, errorOf (addError doc path tag t) doc path = Some tag.
Proof. intros. unfold errorOf, addError. rewrite assoc_massign_same. apply assoc_massign_same. Qed.
Lemma add_other : forall doc path tag t d p, (d, p) <> (doc, path) -> errorOf (addError doc path tag t) d p = errorOf t d p.
Proof.
  intros doc path tag t d p N. unfold errorOf, addError.
  destruct (string_dec d doc) as [->|D].
  - assert (P : p <> path) by congruence. rewrite assoc_massign_same, assoc_massign_other by exact P.
    destruct (assoc doc t) as [m|] eqn:E; [now rewrite E|]. now rewrite assoc_massign_same.
  - rewrite assoc_massign_other by exact D. destruct (assoc doc t); [reflexivity|]. now rewrite assoc_massign_other by exact D.
Qed.
(* the newest call for a place *)
Fixpoint newest (log : list ((string * string) * string)) (doc path : string) : option string :=
  match log with
  | [] => None
  | ((d, p), tag) :: r => if (String.eqb d doc && String.eqb p path)%bool then Some tag else newest r doc path
  end.
Definition play (log : list ((string * string) * string)) : errorTable := fold_right (fun e t => addError (fst (fst e)) (snd (fst e)) (snd e) t) [] log.
Lemma play_newest : forall log doc path, errorOf (play log) doc path = newest log doc path.
Proof.
  induction log as [|[[d p] tag] r IH]; intros doc path; [reflexivity|]. cbn [play fold_right newest fst snd].
  change (fold_right _ [] r) with (play r).
  destruct (string_dec d doc) as [->|D].
  - rewrite String.eqb_refl. destruct (string_dec p path) as [->|P]; [rewrite String.eqb_refl; apply add_same|].
    apply String.eqb_neq in P as P'. rewrite P'. cbn [andb]. rewrite add_other; [apply IH|congruence].
  - apply String.eqb_neq in D as D'. rewrite D'. cbn [andb]. rewrite add_other; [apply IH|congruence].
Qed.
Lemma newest_in : forall log doc path tag, newest log doc path = Some tag -> In ((doc, path), tag) log.
Proof.
  induction log as [|[[d p] t] r IH]; intros doc path tag H; [discriminate|]. cbn [newest] in H.
  destruct (String.eqb_spec d doc) as [->|D], (String.eqb_spec p path) as [->|P]; cbn [andb] in H; [injection H as ->; left; reflexivity|right; auto..].
Qed.
Lemma newest_some : forall log doc path tag, In ((doc, path), tag) log -> exists tag', newest log doc path = Some tag'.
Proof.
  induction log as [|[[d p] t] r IH]; intros doc path tag H; [destruct H|]. cbn [newest].
  destruct (String.eqb_spec d doc) as [->|D], (String.eqb_spec p path) as [->|P]; cbn [andb]; [eauto|..];
    (destruct H as [H|H]; [congruence|eauto]).
Qed.

(* ---- the keys of the table stay distinct ---- *)
Lemma massign_keys : forall A k (v : A) m x, In x (keys (massign k v m)) <-> x = k \/ In x (keys m).
Proof.
  induction m as [|[a b] m IH]; intros x; cbn [massign keys map fst In]; [split; [intros [E|[]]; auto|intros [E|[]]; auto]|].
  destruct (String.eqb_spec k a) as [->|N]; cbn [keys map fst In]; [intuition congruence|]. fold (keys (massign k v m)). rewrite IH. intuition.
Qed.
Lemma massign_nodup : forall A k (v : A) m, NoDup (keys m) -> NoDup (keys (massign k v m)).
Proof.
  induction m as [|[a b] m IH]; intros H; cbn [massign]; [constructor; [intros []|constructor]|].
  inversion H as [|? ? N D]; subst. destruct (String.eqb_spec k a) as [->|K]; [exact H|].
  constructor; [|apply IH; exact D]. intros I. apply (proj1 (massign_keys _ k v m a)) in I. destruct I as [E|I]; [congruence|exact (N I)].
Qed.
Lemma in_massign : forall A k (v : A) m x y, In (x, y) (massign k v m) -> (x = k /\ y = v) \/ In (x, y) m.
Proof.
  induction m as [|[a b] m IH]; intros x y H; cbn [massign] in H; [destruct H as [H|[]]; injection H as <- <-; auto|].
  destruct (String.eqb_spec k a) as [->|K].
  - destruct H as [H|H]; [injection H as <- <-; auto|right; right; exact H].
  - destruct H as [H|H]; [right; left; exact H|]. destruct (IH _ _ H) as [?|?]; [auto|right; right; assumption].
Qed.
Definition sane (t : errorTable) : Prop := NoDup (keys t) /\ forall d m, In (d, m) t -> NoDup (keys m).
Lemma assoc_member : forall A k (v : A) m, NoDup (keys m) -> In (k, v) m -> assoc k m = Some v.
Proof.
  induction m as [|[a b] m IH]; intros N H; [destruct H|]. inversion N as [|? ? N1 N2]; subst. cbn [assoc]. destruct H as [H|H].
  - injection H as <- <-. now rewrite String.eqb_refl.
  - destruct (String.eqb_spec k a) as [->|K]; [|auto]. exfalso. apply N1. apply (in_map fst) in H. exact H.
Qed.
Lemma add_sane : forall doc path tag t, sane t -> sane (addError doc path tag t).
Proof.
  intros doc path tag t [S1 S2]. unfold addError.
  assert (Q : sane match assoc doc t with Some _ => t | None => massign doc [] t end).
  { destruct (assoc doc t); [split; assumption|]. split; [apply massign_nodup; exact S1|].
    intros d m I. apply in_massign in I. destruct I as [[-> ->]|I]; [constructor|exact (S2 d m I)]. }
  revert Q. generalize (match assoc doc t with Some _ => t | None => massign doc [] t end). intros t' [Q1 Q2].
  split; [apply massign_nodup; exact Q1|]. intros d m I. apply in_massign in I. destruct I as [[-> ->]|I]; [|exact (Q2 d m I)].
  apply massign_nodup. destruct (assoc doc t') as [m|] eqn:E; [|constructor]. apply (Q2 doc). apply assoc_In in E. exact E.
Qed.
Lemma play_sane : forall log, sane (play log).
Proof. induction log as [|e r IH]; [split; [constructor|intros d m []]|]. apply add_sane. exact IH. Qed.
Lemma errorOf_in : forall t doc path tag, sane t -> (errorOf t doc path = Some tag <-> exists m, In (doc, m) t /\ In (path, tag) m).
Proof.
  intros t doc path tag [S1 S2]. unfold errorOf. split.
  - destruct (assoc doc t) as [m|] eqn:E; [|discriminate]. intros H. exists m. split; [apply assoc_In in E; exact E|apply assoc_In in H; exact H].
  - intros (m & I & J). rewrite (assoc_member _ _ _ _ S1 I). apply assoc_member; [exact (S2 _ _ I)|exact J].
Qed.

(* ---- the list shown ---- *)
Lemma entries_in : forall t k tag, In (k, tag) (errorEntries t) <-> exists doc path m, k = doc ++ " -> " ++ path /\ In (doc, m) t /\ In (path, tag) m.
Proof.
  intros t k tag. unfold errorEntries. rewrite in_flat_map. split.
  - intros ([d m] & I & J). cbn [fst snd] in J. apply in_map_iff in J. destruct J as ([p x] & E & J). cbn [fst snd] in E. injection E as <- <-. exists d, p, m. auto.
  - intros (doc & path & m & -> & I & J). exists (doc, m). split; [exact I|]. cbn [fst snd]. apply in_map_iff. exists (path, tag). auto.
Qed.
Lemma collect_from : forall (l acc : list (string * string)) k tag, assoc k (fold_left (fun m e => massign (fst e) (snd e) m) l acc) = Some tag ->
  In (k, tag) l \/ assoc k acc = Some tag.
Proof.
  induction l as [|[a b] l IH]; intros acc k tag H; cbn [fold_left fst snd] in H; [auto|]. apply IH in H. destruct H as [H|H]; [left; right; exact H|].
  destruct (string_dec k a) as [->|K]; [rewrite assoc_massign_same in H; injection H as ->; left; left; reflexivity|rewrite assoc_massign_other in H by exact K; auto].
Qed.
Lemma collect_some : forall (l acc : list (string * string)) k, In k (keys l) \/ assoc k acc <> None -> assoc k (fold_left (fun m e => massign (fst e) (snd e) m) l acc) <> None.
Proof.
  induction l as [|[a b] l IH]; intros acc k H; cbn [fold_left fst snd]; [destruct H as [[]|H]; exact H|]. apply IH.
  destruct (string_dec k a) as [->|K]; [right; rewrite assoc_massign_same; discriminate|]. rewrite assoc_massign_other by exact K.
  destruct H as [[H|H]|H]; [cbn in H; congruence|auto|auto].
Qed.

Section Shown.
Variable s : pst.
Variable visits : list (string * string).
Hypothesis all : Permutation visits (errorEntries (errorsOf s)).

Lemma shown_from : forall k tag, assoc k (collectErrors visits) = Some tag -> exists doc path, k = doc ++ " -> " ++ path /\ newest (pErrs s) doc path = Some tag.
Proof.
  intros k tag H. unfold collectErrors in H. apply collect_from in H. destruct H as [H|H]; [|discriminate].
  apply (Permutation_in _ all) in H. apply entries_in in H. destruct H as (doc & path & m & -> & I & J). exists doc, path. split; [reflexivity|].
  rewrite <- play_newest. apply errorOf_in; [apply play_sane|]. exists m. auto.
Qed.
Lemma shown_some : forall doc path, errorAt s doc path -> exists tag, assoc (doc ++ " -> " ++ path) (collectErrors visits) = Some tag.
Proof.
  intros doc path (tag & I). apply newest_some in I. destruct I as (tag' & I). rewrite <- play_newest in I. apply errorOf_in in I; [|apply play_sane].
  destruct I as (m & I & J). assert (W : In (doc ++ " -> " ++ path, tag') visits).
  { apply (Permutation_in _ (Permutation_sym all)). apply entries_in. exists doc, path, m. auto. }
  destruct (assoc (doc ++ " -> " ++ path) (collectErrors visits)) as [x|] eqn:E; [eauto|]. exfalso.
  refine (collect_some visits [] (doc ++ " -> " ++ path) _ E). left. apply (in_map fst) in W. exact W.
Qed.
End Shown.
Lemma has_any : forall s, hasErrors (errorsOf s) = true <-> pErrs s <> [].
Proof.
  intros s. unfold errorsOf, hasErrors. destruct (pErrs s) as [|e r]; [split; [discriminate|congruence]|]. split; [discriminate|intros _]. cbn [fold_right].
  unfold addError. generalize (fold_right (fun e t => addError (fst (fst e)) (snd (fst e)) (snd e) t) [] r). intros t. apply Nat.ltb_lt.
  assert (L : forall A k (v : A) m, 0 < List.length (massign k v m)) by (intros A k v [|[a b] m]; cbn [massign]; [cbn; lia|destruct (String.eqb k a); cbn; lia]). apply L.
Qed.
