(* Inversion lemmas for the parser's monad, and small facts on its primitive operations. *)
From Coq Require Import ZArith List String Bool Lia.
From Verif Require Import Base Float64 Json Schema Util Number Gen Codec PState.
Import ListNotations.
Open Scope string_scope.
Open Scope Z_scope.

Lemma pbind_ok : forall A B (m : P A) (k : A -> P B) s r,
  pbind m k s = Ok r -> exists a s1, m s = Ok (a, s1) /\ k a s1 = Ok r.
Proof. intros. unfold pbind in H. destruct (m s) as [[a s1]|w|] eqn:E; try discriminate. eauto. Qed.

Lemma pbind_intro : forall A B (m : P A) (k : A -> P B) s a s1,
  m s = Ok (a, s1) -> pbind m k s = k a s1.
Proof. intros. unfold pbind. rewrite H. reflexivity. Qed.

Lemma pbind_timeout : forall A B (m : P A) (k : A -> P B) s,
  pbind m k s = Timeout -> m s = Timeout \/ exists a s1, m s = Ok (a, s1) /\ k a s1 = Timeout.
Proof. intros. unfold pbind in H. destruct (m s) as [[a s1]|w|] eqn:E; try discriminate; eauto. Qed.

Lemma pbind_panic : forall A B (m : P A) (k : A -> P B) s w,
  pbind m k s = Panic w -> m s = Panic w \/ exists a s1, m s = Ok (a, s1) /\ k a s1 = Panic w.
Proof. intros. unfold pbind in H. destruct (m s) as [[a s1]|w'|] eqn:E; try discriminate; eauto. left. congruence. Qed.

Lemma pret_ok : forall A (a b : A) s s', pret a s = Ok (b, s') -> b = a /\ s' = s.
Proof. unfold pret. intros. inversion H. auto. Qed.

Lemma pget_ok : forall s a s', pget s = Ok (a, s') -> a = s /\ s' = s.
Proof. unfold pget. intros. inversion H. auto. Qed.

Lemma pmod_ok : forall f s a s', pmod f s = Ok (a, s') -> s' = f s.
Proof. unfold pmod. intros. inversion H. auto. Qed.

(* invert the next bind of a hypothesis *)
Ltac pinv H :=
  let a := fresh "a" in let s := fresh "s" in let H1 := fresh "H" in let H2 := fresh "H" in
  apply pbind_ok in H; destruct H as (a & s & H1 & H2).
Ltac pinvs :=
  repeat match goal with
  | H : pbind _ _ _ = Ok _ |- _ => apply pbind_ok in H; let a := fresh "a" in let s := fresh "s" in let H1 := fresh "H" in
                                    destruct H as (a & s & H1 & H)
  | H : pret _ _ = Ok (_, _) |- _ => apply pret_ok in H; destruct H as [? ?]; subst
  | H : pget _ = Ok (_, _) |- _ => apply pget_ok in H; destruct H as [? ?]; subst
  | H : plift Timeout _ = Ok _ |- _ => discriminate H
  | H : plift (Panic _) _ = Ok _ |- _ => discriminate H
  end.
