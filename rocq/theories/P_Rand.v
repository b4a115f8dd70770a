(* C58: string seeds.  C59: shuffling and choosing. *)
From Coq Require Import ZArith List String Bool Lia Permutation.
From Verif Require Import Base Float64 Json Options Rand Seed Shuffle Gen GenFacts GenInv GenValues ValueDemo.
Import ListNotations.
Open Scope string_scope.
Open Scope Z_scope.

(* ---- C58 ---- *)
(* The seed is the sum of the characters, each times one more than the number of bytes before it, as a
   64-bit integer. *)
Theorem C58_seed_sum : forall s, -2 ^ 63 <= seedOf s < 2 ^ 63 /\
  exists k, seedOf s + k * 2 ^ 64 =
    fold_right Z.add 0 (map (fun i => nth i s 0 * (1 + fold_right Z.add 0 (map runeLen (firstn i s)))) (seq 0 (List.length s))).
Proof.
  assert (B : forall s, fold_right Z.add 0 (map runeLen s) = bytes s) by (induction s as [|c r IH]; cbn; [reflexivity|rewrite IH; reflexivity]).
  assert (W : forall s i, weighted i s = fold_right Z.add 0 (map (fun j => nth j s 0 * (1 + (i + bytes (firstn j s)))) (seq 0 (List.length s)))).
  { induction s as [|c r IH]; intros i; [reflexivity|]. cbn [weighted List.length seq map fold_right nth firstn bytes]. rewrite <- seq_shift, map_map, IH.
    f_equal; [ring|]. f_equal. apply map_ext. intros j. cbn [nth firstn bytes]. ring. }
  intros s. rewrite seedOf_sum. split; [apply wrap_range|].
  exists ((weighted 0 s + 2 ^ 63) / 2 ^ 64). unfold wrap64. pose proof (Z.div_mod (weighted 0 s + 2 ^ 63) (2 ^ 64) ltac:(lia)) as D.
  transitivity (weighted 0 s); [lia|]. rewrite W. f_equal. apply map_ext. intros j. rewrite B. cbn [Z.add]. reflexivity.
Qed.
Print Assumptions C58_seed_sum.

(* Two seed strings of less than 2^40 bytes that differ in one character give different seeds. *)
Theorem C58_one_character : forall a c c' b, c <> c' -> (forall x, In x (a ++ c :: c' :: b)%list -> 0 <= x < 2 ^ 21) ->
  fold_right Z.add 0 (map runeLen (a ++ b)%list) < 2 ^ 40 ->
  seedOf (a ++ c :: b)%list <> seedOf (a ++ c' :: b)%list.
Proof.
  assert (B : forall s, fold_right Z.add 0 (map runeLen s) = bytes s) by (induction s as [|c r IH]; cbn; [reflexivity|rewrite IH; reflexivity]).
  assert (BA : forall s t, bytes (s ++ t)%list = bytes s + bytes t) by (induction s as [|c r IH]; intros t; cbn [app bytes]; [lia|rewrite IH; lia]).
  intros a c c' b N R L. rewrite B, BA in L. pose proof (bytes_pos a). pose proof (bytes_pos b).
  assert (Rc : 0 <= c < 2 ^ 21) by (apply R; apply in_or_app; right; left; reflexivity).
  assert (Rc' : 0 <= c' < 2 ^ 21) by (apply R; apply in_or_app; right; right; left; reflexivity).
  assert (Rb : forall x, In x b -> 0 <= x < 2 ^ 21) by (intros x Hx; apply R; apply in_or_app; right; right; right; exact Hx).
  destruct (Z.lt_total c c') as [Lt|[Eq|Gt]]; [|contradiction|].
  - apply seed_up; auto; lia.
  - intros E. symmetry in E. revert E. apply seed_up; auto; lia.
Qed.
Print Assumptions C58_one_character.

(* Different seed strings can give the same seed: "ab" and "ca". *)
Theorem C58_distinct_refuted : [97; 98] <> [99; 97] /\ seedOf [97; 98] = seedOf [99; 97].
Proof. split; [discriminate|reflexivity]. Qed.
Print Assumptions C58_distinct_refuted.

(* "seed" and "seéd" *)
Example C58_case : seedOf [115; 101; 101; 100] = 1020 /\ seedOf [115; 101; 233; 100] = 1516 /\
  fold_right Z.add 0 (map runeLen [115; 101; 100]) < 2 ^ 40.
Proof. vm_compute. auto. Qed.

(* ---- C59 ---- *)
(* Shuffling rearranges: nothing is lost, added or repeated. *)
Theorem C59_shuffle_permutes : forall A (d : A) l draws, Permutation (shuffle d l draws) l.
Proof. exact shuffle_permutes. Qed.
Print Assumptions C59_shuffle_permutes.

(* Every arrangement is the result of some draws. *)
Theorem C59_shuffle_onto : forall A (d : A) l l', Permutation l' l -> exists draws, shuffle d l draws = l'.
Proof. intros A d l l' P. destruct (shuffle_onto A d l l' P) as (ds & E & _). exists ds. exact E. Qed.
Print Assumptions C59_shuffle_onto.

(* Choosing n of the strings: exactly n, from different positions; a negative number or more than there are panics. *)
Theorem C59_choices : forall GE l n st,
  match stringChoiceMultiple GE l n st with
  | Ok (c, st') => 0 <= n <= Z.of_nat (List.length l) /\ Z.of_nat (List.length c) = n /\ exists rest, Permutation (c ++ rest)%list l
  | Panic _ => n < 0 \/ Z.of_nat (List.length l) < n
  | Timeout => False
  end.
Proof.
  intros GE l n st. unfold stringChoiceMultiple, bindM. destruct (globDraws GE (List.length l) st) as [[ds s1]|w|] eqn:G; [|discriminate G|discriminate G].
  destruct (Z.ltb_spec n 0); cbn [orb]; [left; auto|]. destruct (Z.ltb_spec (Z.of_nat (List.length l)) n); [right; auto|].
  cbn [ret]. split; [lia|]. split.
  - rewrite firstn_length, shuffle_length. lia.
  - exists (skipn (Z.to_nat n) (shuffle "" l (nthDraw ds))). rewrite firstn_skipn. apply shuffle_permutes.
Qed.
Print Assumptions C59_choices.

(* Choosing one: an element of the list, any of them; an empty list panics. *)
Theorem C59_choice : forall A (l : list A) d,
  match choice l d with Ok x => In x l | Panic _ => l = [] | Timeout => False end.
Proof.
  intros A l d. unfold choice, intn. destruct (Z.leb_spec (Z.of_nat (List.length l)) 0) as [L|L]; cbn [bind].
  - destruct l; [reflexivity|cbn in L; lia].
  - pose proof (Z.mod_pos_bound d _ L). destruct (nth_error l _) as [x|] eqn:E; [eapply nth_error_In; eauto|]. apply nth_error_None in E. lia.
Qed.
Print Assumptions C59_choice.
Theorem C59_choice_onto : forall A (l : list A) x, In x l -> exists d, choice l d = Ok x.
Proof.
  intros A l x H. apply In_nth_error in H. destruct H as [i H]. assert (L : (i < List.length l)%nat) by (apply nth_error_Some; congruence).
  exists (Z.of_nat i). unfold choice, intn. destruct (Z.leb_spec (Z.of_nat (List.length l)) 0); [lia|]. cbn [bind]. rewrite Z.mod_small by lia. rewrite Nat2Z.id, H. reflexivity.
Qed.
Print Assumptions C59_choice_onto.


(* Any choice of that many elements, in any order, is the result of some draws. *)
Theorem C59_choices_onto : forall GE l c rest st, Permutation (c ++ rest)%list l -> exists draws,
  stringChoiceMultiple (mkEnv (eOpts GE) (eRefs GE) (eRand GE) draws (eSentence GE) (eFormat GE) (eRegen GE) (eValid GE) (eMatch GE) (eIsFormat GE))
    l (Z.of_nat (List.length c)) st = Ok (c, mkG (gPos st) (gGlob st + List.length l) (gCx st) (gStack st) (gLog st)).
Proof.
  intros GE l c rest st P. destruct (shuffle_onto _ "" l _ P) as (ds & E & _).
  exists (fun i => ds (i - gGlob st)%nat). unfold stringChoiceMultiple, bindM, globDraws. cbn [eGlob].
  assert (L : (List.length (c ++ rest) = List.length l)%nat) by (apply Permutation_length; exact P). rewrite app_length in L.
  destruct (Z.ltb_spec (Z.of_nat (List.length c)) 0); [lia|]. destruct (Z.ltb_spec (Z.of_nat (List.length l)) (Z.of_nat (List.length c))); [lia|].
  cbn [orb]. unfold ret. rewrite Nat2Z.id. f_equal. f_equal.
  transitivity (firstn (List.length c) (shuffle "" l ds)).
  - f_equal. unfold shuffle. f_equal. apply perm_ext. intros i Hi. unfold nthDraw.
    rewrite (nth_indep _ 0 (ds (gGlob st + 0 - gGlob st)%nat)) by (rewrite map_length, seq_length; exact Hi).
    rewrite (map_nth (fun i => ds (gGlob st + i - gGlob st)%nat)), seq_nth by exact Hi. f_equal. lia.
  - rewrite E, firstn_app, Nat.sub_diag, firstn_all. cbn [firstn]. apply app_nil_r.
Qed.
Print Assumptions C59_choices_onto.

Example C59_case : shuffle "" ["a"; "b"; "c"; "d"] (fun i => Z.of_nat (i * i)) = ["a"; "d"; "b"; "c"] /\
  Permutation (["d"; "b"] ++ ["a"; "c"])%list ["a"; "b"; "c"; "d"].
Proof.
  split; [reflexivity|]. cbn [app]. apply (Permutation_trans (l' := ["b"; "d"; "a"; "c"])); [constructor|].
  apply (Permutation_trans (l' := ["b"; "a"; "d"; "c"])); [repeat constructor|].
  apply (Permutation_trans (l' := ["a"; "b"; "d"; "c"])); repeat constructor.
Qed.
