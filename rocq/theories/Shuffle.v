(* rand/random.go Shuffle and StringChoiceMultiple: rearrangements. *)
From Coq Require Import ZArith List String Bool Lia Permutation.
From Verif Require Import Base Json Rand.
Import ListNotations.
Open Scope list_scope.
Open Scope nat_scope.

(* one round of the loop of Perm with the index j *)
Definition place (i j : nat) (m : list nat) : list nat := upd_nth (m ++ [nth j (m ++ [i]) i]) j i.
Definition pick (i : nat) (d : Z) : nat := Z.to_nat (d mod Z.of_nat (S i)).
Lemma pick_le : forall i d, pick i d <= i.
Proof. intros i d. unfold pick. pose proof (Z.mod_pos_bound d (Z.of_nat (S i)) ltac:(lia)). lia. Qed.
Lemma pick_of : forall i j, j <= i -> pick i (Z.of_nat j) = j.
Proof. intros i j H. unfold pick. rewrite Z.mod_small by lia. apply Nat2Z.id. Qed.
Lemma perm_last : forall n i ds m, perm_loop i (S n) ds m = place (i + n) (pick (i + n) (ds (i + n))) (perm_loop i n ds m).
Proof.
  induction n as [|n IH]; intros i ds m.
  - rewrite Nat.add_0_r. reflexivity.
  - change (perm_loop i (S (S n)) ds m) with (perm_loop (S i) (S n) ds (place i (pick i (ds i)) m)). rewrite IH.
    change (perm_loop i (S n) ds m) with (perm_loop (S i) n ds (place i (pick i (ds i)) m)). rewrite <- !plus_n_Sm. reflexivity.
Qed.
Lemma perm_S : forall n ds, perm (S n) ds = place n (pick n (ds n)) (perm n ds).
Proof. intros n ds. unfold perm. rewrite perm_last. reflexivity. Qed.

Lemma place_end : forall i m, List.length m = i -> place i i m = m ++ [i].
Proof.
  intros i m L. unfold place, upd_nth. rewrite app_nth2, L, Nat.sub_diag by lia. cbn [nth].
  rewrite firstn_app, L, Nat.sub_diag. cbn [firstn]. rewrite <- L, firstn_all, app_nil_r. rewrite skipn_all2; [reflexivity|]. rewrite app_length. cbn. lia.
Qed.
Lemma place_in : forall i a x b, List.length a + S (List.length b) = i -> place i (List.length a) (a ++ x :: b) = a ++ i :: b ++ [x].
Proof.
  intros i a x b L. unfold place, upd_nth.
  assert (E : nth (List.length a) ((a ++ x :: b) ++ [i]) i = x) by (rewrite <- app_assoc, app_nth2, Nat.sub_diag by lia; reflexivity). rewrite E. clear E.
  rewrite <- app_assoc. rewrite firstn_app, Nat.sub_diag, firstn_all. cbn [firstn]. rewrite app_nil_r. f_equal. f_equal.
  change (S (List.length a)) with (1 + List.length a). rewrite skipn_app, skipn_all2 by lia. cbn [app].
  replace (1 + List.length a - List.length a) with 1 by lia. reflexivity.
Qed.
Lemma place_cases : forall i j m, List.length m = i -> j <= i ->
  (j = i /\ place i j m = m ++ [i]) \/ exists a x b, m = a ++ x :: b /\ List.length a = j /\ place i j m = a ++ i :: b ++ [x].
Proof.
  intros i j m L J. destruct (Nat.eq_dec j i) as [->|N]; [left; split; [reflexivity|apply place_end; exact L]|right].
  destruct (nth_error m j) as [x|] eqn:E; [|apply nth_error_None in E; lia]. apply nth_error_split in E. destruct E as (a & b & -> & <-).
  exists a, x, b. split; [reflexivity|]. split; [reflexivity|]. apply place_in. rewrite app_length in L. exact L.
Qed.
Lemma place_perm : forall i j m, List.length m = i -> j <= i -> Permutation (place i j m) (m ++ [i]).
Proof.
  intros i j m L J. destruct (place_cases i j m L J) as [[_ ->]|(a & x & b & -> & _ & ->)]; [reflexivity|].
  rewrite <- app_assoc. apply Permutation_app_head. cbn [app]. etransitivity; [apply perm_skip, Permutation_sym, Permutation_cons_append|].
  etransitivity; [apply perm_swap|]. apply perm_skip. apply Permutation_cons_append.
Qed.
Lemma perm_permutes : forall n ds, Permutation (perm n ds) (seq 0 n).
Proof.
  induction n as [|n IH]; intros ds; [constructor|]. rewrite perm_S, seq_S. cbn [plus].
  etransitivity; [apply place_perm; [rewrite (Permutation_length (IH ds)), seq_length; reflexivity|apply pick_le]|].
  apply Permutation_app_tail. apply IH.
Qed.
Lemma perm_ext : forall n ds ds', (forall i, i < n -> ds i = ds' i) -> perm n ds = perm n ds'.
Proof. induction n as [|n IH]; intros ds ds' H; [reflexivity|]. rewrite !perm_S, (IH ds ds'), (H n) by auto. reflexivity. Qed.
Lemma perm_onto : forall n p, Permutation p (seq 0 n) -> exists ds, perm n ds = p /\ forall i, (0 <= ds i <= Z.of_nat i)%Z.
Proof.
  induction n as [|n IH]; intros p P.
  - apply Permutation_sym, Permutation_nil in P. subst p. exists (fun _ => 0%Z). split; [reflexivity|lia].
  - assert (I : In n p) by (eapply Permutation_in; [apply Permutation_sym; exact P|apply in_seq; lia]).
    apply in_split in I. destruct I as (a & b & ->). rewrite seq_S in P. cbn [plus] in P.
    assert (P' : Permutation (a ++ b) (seq 0 n)).
    { rewrite <- (app_nil_r (seq 0 n)). apply (Permutation_app_inv a b (seq 0 n) [] n). exact P. }
    assert (D : forall q j, Permutation q (seq 0 n) -> j <= n -> place n j q = a ++ n :: b ->
              exists ds, perm (S n) ds = a ++ n :: b /\ forall i, (0 <= ds i <= Z.of_nat i)%Z).
    { intros q j Q J E. destruct (IH q Q) as (ds & Hd & R). exists (fun i => if Nat.eqb i n then Z.of_nat j else ds i). split.
      - rewrite perm_S, Nat.eqb_refl, pick_of by exact J. rewrite <- E. f_equal. rewrite <- Hd. apply perm_ext. intros i L. destruct (Nat.eqb_spec i n); [lia|reflexivity].
      - intros i. destruct (Nat.eqb_spec i n); [subst; lia|apply R]. }
    pose proof (Permutation_length P') as L. rewrite app_length, seq_length in L.
    destruct b as [|x b'] using rev_ind; [|clear IHb'].
    + rewrite app_nil_r in P'. apply (D a n P'); [lia|]. apply place_end. cbn in L. lia.
    + rewrite app_length in L. cbn [List.length] in L. apply (D (a ++ x :: b') (List.length a)).
      * etransitivity; [|exact P']. apply Permutation_app_head. apply Permutation_cons_append.
      * lia.
      * apply place_in. lia.
Qed.

(* ------------------------------------------------------------------ lists *)
Lemma map_nth_seq : forall A (d : A) l, map (fun i => nth i l d) (seq 0 (List.length l)) = l.
Proof.
  intros A d l. induction l as [|x l IH]; [reflexivity|]. cbn [List.length seq map nth]. f_equal. rewrite <- seq_shift, map_map. exact IH.
Qed.
Lemma shuffle_permutes : forall A (d : A) l ds, Permutation (shuffle d l ds) l.
Proof. intros A d l ds. transitivity (map (fun i => nth i l d) (seq 0 (List.length l))); [|rewrite map_nth_seq; reflexivity].
  unfold shuffle. apply Permutation_map. apply perm_permutes. Qed.
Lemma shuffle_onto : forall A (d : A) l l', Permutation l' l -> exists ds, shuffle d l ds = l' /\ forall i, (0 <= ds i <= Z.of_nat i)%Z.
Proof.
  intros A d l l' P. rewrite <- (map_nth_seq A d l) in P. apply Permutation_map_inv in P. destruct P as (p & -> & P).
  destruct (perm_onto _ p (Permutation_sym P)) as (ds & E & R). exists ds. split; [|exact R]. unfold shuffle. rewrite E. reflexivity.
Qed.
