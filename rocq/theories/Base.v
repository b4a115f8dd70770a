(* Shared vocabulary of the model: results of Go calls, decimal printing, association lists as maps.
   Nothing here is specific to go-chaff. *)
From Coq Require Import ZArith List String Ascii Bool Lia DecimalString DecimalZ.
Import ListNotations.
Open Scope string_scope.
Open Scope Z_scope.

(* Outcome of a Go call: a value, a run-time panic, or "the model ran out of fuel". *)
Inductive res (A : Type) : Type :=
| Ok (a : A)
| Panic (why : string)
| Timeout.
Arguments Ok {A} a.
Arguments Panic {A} why.
Arguments Timeout {A}.

Definition bind {A B} (m : res A) (k : A -> res B) : res B :=
  match m with
  | Ok a => k a
  | Panic w => Panic w
  | Timeout => Timeout
  end.

Notation "'let!' p := m 'in' k" := (bind m (fun p => k))
  (at level 200, p pattern, m at level 100, k at level 200, right associativity).

Lemma bind_ok : forall A B (m : res A) (k : A -> res B) b,
  bind m k = Ok b -> exists a, m = Ok a /\ k a = Ok b.
Proof. intros A B [a| |] k b H; simpl in H; try discriminate. eauto. Qed.

Lemma bind_timeout : forall A B (m : res A) (k : A -> res B),
  bind m k = Timeout -> m = Timeout \/ exists a, m = Ok a /\ k a = Timeout.
Proof. intros A B [a| |] k H; simpl in H; try discriminate; eauto. Qed.

Lemma bind_panic : forall A B (m : res A) (k : A -> res B) w,
  bind m k = Panic w -> m = Panic w \/ exists a, m = Ok a /\ k a = Panic w.
Proof. intros A B [a| |] k w H; simpl in H; try discriminate; eauto. left; congruence. Qed.

(* fmt.Sprintf("%d", z) *)
Definition itoa (z : Z) : string := NilEmpty.string_of_int (Z.to_int z).

Lemma itoa_inj : forall a b, itoa a = itoa b -> a = b.
Proof.
  intros a b H. unfold itoa in H.
  apply (f_equal NilEmpty.int_of_string) in H.
  rewrite !NilEmpty.isi in H.
  injection H as H.
  apply (f_equal Z.of_int) in H.
  now rewrite !DecimalZ.of_to in H.
Qed.

Lemma append_inj_l : forall p a b : string, (p ++ a)%string = (p ++ b)%string -> a = b.
Proof. induction p; simpl; intros; auto. injection H; auto. Qed.

Lemma append_assoc : forall a b c : string, (a ++ (b ++ c) = (a ++ b) ++ c)%string.
Proof. induction a; simpl; intros; f_equal; auto. Qed.

Lemma append_length : forall a b, String.length (a ++ b) = (String.length a + String.length b)%nat.
Proof. induction a; simpl; intros; auto. Qed.

Lemma append_nil_r : forall a : string, (a ++ "")%string = a.
Proof. induction a; simpl; intros; f_equal; auto. Qed.

(* Is a string in a list of strings (funk.ContainsString) *)
Fixpoint mem_string (x : string) (l : list string) : bool :=
  match l with
  | [] => false
  | y :: r => if String.eqb x y then true else mem_string x r
  end.

Lemma mem_string_In : forall x l, mem_string x l = true <-> In x l.
Proof.
  induction l; simpl; split; intros; try discriminate; try tauto.
  - destruct (String.eqb_spec x a); [left; auto | right; apply IHl; auto].
  - destruct (String.eqb_spec x a); auto. destruct H; [congruence | apply IHl; auto].
Qed.

Lemma mem_string_not_In : forall x l, mem_string x l = false <-> ~ In x l.
Proof.
  intros. rewrite <- mem_string_In. destruct (mem_string x l); split; congruence.
Qed.

(* Go maps with string keys: association lists; the order of the list stands for the (arbitrary)
   iteration order of the map. *)
Fixpoint assoc {A} (k : string) (m : list (string * A)) : option A :=
  match m with
  | [] => None
  | (k', v) :: r => if String.eqb k k' then Some v else assoc k r
  end.

(* m[k] = v *)
Fixpoint massign {A} (k : string) (v : A) (m : list (string * A)) : list (string * A) :=
  match m with
  | [] => [(k, v)]
  | (k', v') :: r => if String.eqb k k' then (k, v) :: r else (k', v') :: massign k v r
  end.

(* delete(m, k) *)
Fixpoint mdelete {A} (k : string) (m : list (string * A)) : list (string * A) :=
  match m with
  | [] => []
  | (k', v') :: r => if String.eqb k k' then mdelete k r else (k', v') :: mdelete k r
  end.

Definition keys {A} (m : list (string * A)) : list string := map fst m.

Lemma assoc_In : forall A k (m : list (string * A)) v, assoc k m = Some v -> In (k, v) m.
Proof.
  induction m as [|[k' v'] r]; simpl; intros; try discriminate.
  destruct (String.eqb_spec k k'); [left; congruence | right; auto].
Qed.

Lemma assoc_None : forall A k (m : list (string * A)), assoc k m = None <-> ~ In k (keys m).
Proof.
  induction m as [|[k' v'] r]; simpl; [tauto|].
  destruct (String.eqb_spec k k').
  - split; [discriminate|]. intros H; elim H; auto.
  - rewrite IHr. unfold keys. split; intros H; [intros [H1|H1]; [congruence|tauto] | tauto].
Qed.

Lemma assoc_Some_key : forall A k (m : list (string * A)) v, assoc k m = Some v -> In k (keys m).
Proof. intros. apply assoc_In in H. unfold keys. apply in_map_iff. exists (k, v); auto. Qed.

Lemma key_assoc : forall A k (m : list (string * A)), In k (keys m) -> exists v, assoc k m = Some v.
Proof.
  intros. destruct (assoc k m) eqn:E; eauto. apply assoc_None in E. tauto.
Qed.

Lemma In_assoc : forall A k v (m : list (string * A)),
  NoDup (keys m) -> In (k, v) m -> assoc k m = Some v.
Proof.
  induction m as [|[k' v'] r]; simpl; intros Hnd H; [tauto|].
  inversion Hnd; subst. destruct (String.eqb_spec k k').
  - destruct H as [H|H]; [congruence|]. subst. elim H2. unfold keys. apply in_map_iff. exists (k', v); auto.
  - destruct H as [H|H]; [congruence|]. auto.
Qed.

Lemma massign_keys : forall A k (v : A) m x, In x (keys (massign k v m)) <-> x = k \/ In x (keys m).
Proof.
  induction m as [|[k' v'] r]; simpl; intros.
  - split; intros [H|H]; auto.
  - destruct (String.eqb_spec k k'); simpl.
    + subst. split; intros [H|H]; auto.
    + unfold keys in *. rewrite IHr. split; intros [H|H]; auto; destruct H; auto.
Qed.

Lemma massign_NoDup : forall A k (v : A) m, NoDup (keys m) -> NoDup (keys (massign k v m)).
Proof.
  induction m as [|[k' v'] r]; simpl; intros H.
  - constructor; [intros []|constructor].
  - inversion H; subst. destruct (String.eqb_spec k k'); simpl.
    + subst; constructor; auto.
    + constructor; auto. intro HI. apply massign_keys in HI. destruct HI; [congruence|auto].
Qed.

Lemma assoc_massign_same : forall A k (v : A) m, assoc k (massign k v m) = Some v.
Proof.
  induction m as [|[k' v'] r]; simpl.
  - now rewrite String.eqb_refl.
  - destruct (String.eqb_spec k k'); simpl.
    + now rewrite String.eqb_refl.
    + destruct (String.eqb_spec k k'); congruence.
Qed.

Lemma assoc_massign_other : forall A k k' (v : A) m, k' <> k -> assoc k' (massign k v m) = assoc k' m.
Proof.
  induction m as [|[k2 v2] r]; simpl; intros.
  - destruct (String.eqb_spec k' k); congruence.
  - destruct (String.eqb_spec k k2); simpl.
    + subst. destruct (String.eqb_spec k' k2); congruence.
    + destruct (String.eqb_spec k' k2); auto.
Qed.

Lemma massign_length_new : forall A k (v : A) m, ~ In k (keys m) ->
  List.length (massign k v m) = S (List.length m).
Proof.
  induction m as [|[k' v'] r]; simpl; intros; auto.
  destruct (String.eqb_spec k k'); simpl.
  - subst; tauto.
  - rewrite IHr; auto.
Qed.

Lemma massign_length_old : forall A k (v : A) m, In k (keys m) ->
  List.length (massign k v m) = List.length m.
Proof.
  induction m as [|[k' v'] r]; simpl; intros; [tauto|].
  destruct (String.eqb_spec k k'); simpl; auto.
  rewrite IHr; auto. destruct H; [congruence | auto].
Qed.

Lemma massign_length_le : forall A k (v : A) m,
  (List.length m <= List.length (massign k v m) <= S (List.length m))%nat.
Proof.
  intros. destruct (in_dec string_dec k (keys m)).
  - rewrite massign_length_old; auto.
  - rewrite massign_length_new; auto.
Qed.

Lemma massign_In : forall A k (v : A) m k' v',
  In (k', v') (massign k v m) -> (k' = k /\ v' = v) \/ In (k', v') m.
Proof.
  induction m as [|[k2 v2] r]; simpl; intros.
  - destruct H; [left; split; congruence | tauto].
  - destruct (String.eqb_spec k k2); simpl in H.
    + destruct H; [left; split; congruence | tauto].
    + destruct H; [right; left; auto|]. apply IHr in H. tauto.
Qed.

Definition is_some {A} (o : option A) : bool := match o with Some _ => true | None => false end.
Definition get_or {A} (o : option A) (d : A) : A := match o with Some a => a | None => d end.
