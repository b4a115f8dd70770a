(* internal/regen/rng.go: the xorshift source behind the regular-expression generator. *)
From Coq Require Import NArith Lia ZArith Znumtheory Zpow_facts Bool List.
Import ListNotations.
Local Open Scope N_scope.

Definition two64 : N := 2 ^ 64.

(* internal/regen/rng.go 36-48 xorShift64Source.Int63, the update of the state.  A uint64 is an N below
   2^64; "<<" drops the bits above the 64th. *)
Definition rngNext (s : N) : N :=
  let s := if N.eqb s 0 then 1 else s in
  let s := N.lxor s (N.shiftr s 12) in
  let s := N.lxor s (N.shiftl s 25 mod two64) in
  N.lxor s (N.shiftr s 27).

(* rng.go 47: the number returned; the multiplication wraps.  The result is below 2^63 (proved), so the
   conversion to int64 keeps it. *)
Definition rngOut (s : N) : N := N.shiftr ((s * 2685821657736338717) mod two64) 1.

(* rng.go 36-48 *)
Definition rngInt63 (s : N) : N * N := let s' := rngNext s in (rngOut s', s').

(* rng.go 32-34 Seed: an int64 converted to uint64 *)
Definition rngSeed (seed : Z) : N := Z.to_N (seed mod 2 ^ 64).

(* the first k numbers drawn, and the state after them *)
Fixpoint rngDraws (k : nat) (s : N) : list N * N :=
  match k with
  | O => ([], s)
  | S k' => let '(o, s1) := rngInt63 s in let '(os, s2) := rngDraws k' s1 in (o :: os, s2)
  end.

(* ------------------------------------------------------------------ facts *)

Definition shr (k s : N) : N := N.lxor s (N.shiftr s k).
Definition shl (k s : N) : N := N.lxor s (N.shiftl s k mod two64).

Lemma lxor_linear4 : forall a b c d, N.lxor (N.lxor a b) (N.lxor c d) = N.lxor (N.lxor a c) (N.lxor b d).
Proof.
  intros. apply N.bits_inj. intro i. rewrite !N.lxor_spec.
  destruct (N.testbit a i), (N.testbit b i), (N.testbit c i), (N.testbit d i); reflexivity.
Qed.

Lemma shr_linear : forall k a b, shr k (N.lxor a b) = N.lxor (shr k a) (shr k b).
Proof. intros. unfold shr. rewrite N.shiftr_lxor. apply lxor_linear4. Qed.

Lemma mod_lxor : forall a b, (N.lxor a b) mod two64 = N.lxor (a mod two64) (b mod two64).
Proof.
  intros. unfold two64. rewrite <- !N.land_ones.
  apply N.bits_inj. intro i. rewrite ?N.land_spec, ?N.lxor_spec, ?N.land_spec.
  destruct (N.testbit a i), (N.testbit b i), (N.testbit (N.ones 64) i); reflexivity.
Qed.

Lemma shl_linear : forall k a b, shl k (N.lxor a b) = N.lxor (shl k a) (shl k b).
Proof. intros. unfold shl. rewrite N.shiftl_lxor, mod_lxor. apply lxor_linear4. Qed.

Lemma lt_bits : forall a, (forall i, 64 <= i -> N.testbit a i = false) -> a < two64.
Proof.
  intros a H. unfold two64. destruct (N.eq_dec a 0) as [->|Ha]; [reflexivity|].
  apply N.log2_lt_pow2; [lia|]. destruct (N.lt_ge_cases (N.log2 a) 64); [assumption|].
  exfalso. specialize (H _ H0). rewrite N.bit_log2 in H by assumption. discriminate.
Qed.
Lemma bits_lt : forall a, a < two64 -> forall i, 64 <= i -> N.testbit a i = false.
Proof.
  intros a H i Hi. destruct (N.eq_dec a 0) as [->|Ha]; [apply N.bits_0|].
  apply N.bits_above_log2. unfold two64 in H. apply N.log2_lt_pow2 in H; lia.
Qed.

Lemma lxor_lt : forall a b, a < two64 -> b < two64 -> N.lxor a b < two64.
Proof.
  intros. apply lt_bits. intros i Hi. rewrite N.lxor_spec, (bits_lt a), (bits_lt b) by assumption. reflexivity.
Qed.
Lemma shiftr_le : forall a k, N.shiftr a k <= a.
Proof.
  intros. rewrite N.shiftr_div_pow2.
  apply N.div_le_upper_bound; [apply N.pow_nonzero; discriminate|].
  assert (2 ^ k <> 0) by (apply N.pow_nonzero; discriminate). nia.
Qed.
Lemma shr_lt : forall k a, a < two64 -> shr k a < two64.
Proof. intros. apply lxor_lt; [assumption|]. eapply N.le_lt_trans; [apply shiftr_le|assumption]. Qed.
Lemma shl_lt : forall k a, a < two64 -> shl k a < two64.
Proof. intros. apply lxor_lt; [assumption|]. apply N.mod_lt. discriminate. Qed.

Lemma lxor_zero : forall a b, N.lxor a b = 0 -> a = b.
Proof. apply N.lxor_eq. Qed.

Lemma shr_zero : forall k a, 0 < k -> shr k a = 0 -> a = 0.
Proof.
  intros k a Hk H. apply lxor_zero in H. rewrite N.shiftr_div_pow2 in H.
  destruct (N.eq_dec a 0); [assumption|]. exfalso.
  assert (a / 2 ^ k < a) by (apply N.div_lt; [lia|apply N.pow_gt_1; lia]). lia.
Qed.

Lemma shl_zero : forall k a, 0 < k -> a < two64 -> shl k a = 0 -> a = 0.
Proof.
  intros k a Hk Ha H. apply lxor_zero in H.
  rewrite N.shiftl_mul_pow2 in H.
  assert (Hp : exists m, 2 ^ k = 2 * m).
  { exists (2 ^ (N.pred k)). rewrite <- N.pow_succ_r'. f_equal. lia. }
  destruct Hp as [m Hm]. rewrite Hm in H.
  pose proof (N.div_mod (a * (2 * m)) two64 ltac:(discriminate)) as D. rewrite <- H in D.
  set (q := a * (2 * m) / two64) in *.
  assert (Hdiv : (Z.of_N two64 | Z.of_N a * (2 * Z.of_N m - 1))%Z) by (exists (Z.of_N q); lia).
  assert (Hc : rel_prime (Z.of_N two64) (2 * Z.of_N m - 1)).
  { change (Z.of_N two64) with (2 ^ 64)%Z. apply rel_prime_sym, rel_prime_Zpower_r; [lia|].
    apply rel_prime_sym. apply bezout_rel_prime. apply (Bezout_intro _ _ _ (Z.of_N m) (-1)%Z). lia. }
  rewrite Z.mul_comm in Hdiv. apply Gauss in Hdiv; [|exact Hc].
  destruct (N.eq_dec a 0); [assumption|]. exfalso.
  apply Z.divide_pos_le in Hdiv; lia.
Qed.

Lemma rngNext_eq : forall s, s <> 0 -> rngNext s = shr 27 (shl 25 (shr 12 s)).
Proof. intros s H. unfold rngNext. apply N.eqb_neq in H. rewrite H. reflexivity. Qed.

Lemma step_zero : forall s, s < two64 -> shr 27 (shl 25 (shr 12 s)) = 0 -> s = 0.
Proof.
  intros s H E. apply shr_zero in E; [|lia]. apply shl_zero in E; [|lia|apply shr_lt; assumption].
  apply shr_zero in E; [assumption|lia].
Qed.

Lemma rngNext_ok : forall s, s < two64 -> 0 < rngNext s < two64.
Proof.
  intros s H. destruct (N.eq_dec s 0) as [->|Hs].
  - vm_compute. split; reflexivity.
  - rewrite rngNext_eq by assumption. split.
    + destruct (N.eq_dec (shr 27 (shl 25 (shr 12 s))) 0) as [E|E]; [|lia].
      apply step_zero in E; [contradiction|assumption].
    + apply shr_lt, shl_lt, shr_lt. assumption.
Qed.

Lemma rngNext_inj : forall a b, 0 < a < two64 -> 0 < b < two64 -> rngNext a = rngNext b -> a = b.
Proof.
  intros a b Ha Hb E. rewrite !rngNext_eq in E by lia.
  apply N.lxor_eq. apply step_zero; [apply lxor_lt; lia|].
  rewrite shr_linear, shl_linear, shr_linear, E. apply N.lxor_nilpotent.
Qed.

Lemma rngOut_lt : forall s, rngOut s < 2 ^ 63.
Proof.
  intros. unfold rngOut. rewrite N.shiftr_div_pow2.
  apply N.div_lt_upper_bound; [discriminate|].
  change (2 ^ 1 * 2 ^ 63) with two64. apply N.mod_lt. discriminate.
Qed.

Lemma rngDraws_ok : forall k s, s < two64 ->
  (snd (rngDraws k s) < two64) /\ (0 < s \/ (k > 0)%nat -> 0 < snd (rngDraws k s)) /\
  Forall (fun o => o < 2 ^ 63) (fst (rngDraws k s)) /\ length (fst (rngDraws k s)) = k.
Proof.
  induction k as [|k IH]; intros s H.
  - cbn. repeat split; auto. intros [|]; lia.
  - cbn [rngDraws]. unfold rngInt63. cbn beta iota zeta.
    destruct (rngNext_ok s H) as [P Q]. destruct (IH _ Q) as (I1 & I2 & I3 & I4).
    destruct (rngDraws k (rngNext s)) as [os s2]. cbn in *.
    repeat split; auto. constructor; [apply rngOut_lt|assumption].
Qed.

Lemma rngSeed_lt : forall z, rngSeed z < two64.
Proof.
  intros. unfold rngSeed. assert (0 <= z mod 2 ^ 64 < 2 ^ 64)%Z by (apply Z.mod_pos_bound; lia).
  change (2 ^ 64)%Z with (Z.of_N two64) in *. lia.
Qed.
