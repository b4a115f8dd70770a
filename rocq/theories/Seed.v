(* rand/random.go 15-21: the number a string seed stands for. *)
From Coq Require Import ZArith List String Bool Lia.
From Verif Require Import Base Float64.
Import ListNotations.
Open Scope Z_scope.

(* unicode/utf8 RuneLen: how many bytes of a string a character takes *)
Definition runeLen (c : Z) : Z := if c <? 128 then 1 else if c <? 2048 then 2 else if c <? 65536 then 3 else 4.

(* random.go 16-19 NewRandUtilFromString: for i, c := range stringSeed { seed += int64(c) * int64(i+1) }, where i is
   the byte at which the character c begins.  The string is given by its characters (valid UTF-8); int64
   wraps around. *)
Fixpoint seedLoop (i seed : Z) (s : list Z) : Z :=
  match s with
  | [] => seed
  | c :: r => seedLoop (i + runeLen c) (wrap64 (seed + wrap64 (c * (i + 1)))) r
  end.
Definition seedOf (s : list Z) : Z := seedLoop 0 0 s.

Lemma wrap_range : forall z, - 2 ^ 63 <= wrap64 z < 2 ^ 63.
Proof. intros z. unfold wrap64. pose proof (Z.mod_pos_bound (z + 2 ^ 63) (2 ^ 64) ltac:(lia)). lia. Qed.
Lemma wrap_mod : forall z, wrap64 z mod 2 ^ 64 = z mod 2 ^ 64.
Proof.
  intros z. unfold wrap64. rewrite Zminus_mod, Zmod_mod, <- Zminus_mod. f_equal. lia.
Qed.
Lemma wrap_same : forall a b, wrap64 a = wrap64 b <-> a mod 2 ^ 64 = b mod 2 ^ 64.
Proof.
  intros a b. split; intros H.
  - rewrite <- (wrap_mod a), <- (wrap_mod b), H. reflexivity.
  - unfold wrap64. f_equal. rewrite (Zplus_mod a), (Zplus_mod b), H. reflexivity.
Qed.
Lemma wrap_wrap : forall z, wrap64 (wrap64 z) = wrap64 z.
Proof. intros. apply wrap_same. apply wrap_mod. Qed.

(* the plain sum the loop computes up to multiples of 2^64 *)
Fixpoint weighted (i : Z) (s : list Z) : Z := match s with [] => 0 | c :: r => c * (i + 1) + weighted (i + runeLen c) r end.
Lemma seedLoop_sum : forall s i seed, wrap64 (seedLoop i seed s) = wrap64 (seed + weighted i s).
Proof.
  induction s as [|c r IH]; intros i seed; cbn [seedLoop weighted]; [f_equal; lia|].
  rewrite IH. apply wrap_same. rewrite Zplus_mod, wrap_mod, <- Zplus_mod.
  rewrite <- Z.add_assoc, (Zplus_mod seed), (Zplus_mod (wrap64 _)), wrap_mod, <- (Zplus_mod (c * _)), <- Zplus_mod. reflexivity.
Qed.
Lemma seedLoop_wrapped : forall s i seed, wrap64 seed = seed -> wrap64 (seedLoop i seed s) = seedLoop i seed s.
Proof. induction s as [|c r IH]; intros i seed H; cbn [seedLoop]; [exact H|]. apply IH. apply wrap_wrap. Qed.
Lemma seedOf_sum : forall s, seedOf s = wrap64 (weighted 0 s).
Proof.
  intros s. unfold seedOf. rewrite <- (seedLoop_wrapped s 0 0) by reflexivity. rewrite seedLoop_sum. reflexivity.
Qed.
Fixpoint bytes (s : list Z) : Z := match s with [] => 0 | c :: r => runeLen c + bytes r end.
Lemma runeLen_pos : forall c, 1 <= runeLen c.
Proof. intros c. unfold runeLen. repeat (match goal with |- context [if ?b then _ else _] => destruct b end); lia. Qed.
Lemma bytes_pos : forall s, 0 <= bytes s.
Proof. induction s as [|c r IH]; cbn [bytes]; [lia|]. pose proof (runeLen_pos c). lia. Qed.
Lemma weighted_app : forall a i b, weighted i (a ++ b) = weighted i a + weighted (i + bytes a) b.
Proof.
  induction a as [|c r IH]; intros i b; cbn [weighted app bytes]; [rewrite Z.add_0_r; reflexivity|]. rewrite IH. replace (i + (runeLen c + bytes r)) with (i + runeLen c + bytes r) by lia. ring.
Qed.
Fixpoint total (s : list Z) : Z := match s with [] => 0 | c :: r => c + total r end.
Lemma weighted_shift : forall s i k, weighted (i + k) s = weighted i s + k * total s.
Proof.
  induction s as [|c r IH]; intros i k; cbn [weighted total]; [ring|]. replace (i + k + runeLen c) with (i + runeLen c + k) by ring. rewrite IH. ring.
Qed.
Lemma total_range : forall s, (forall c, In c s -> 0 <= c < 2 ^ 21) -> 0 <= total s <= 2 ^ 21 * bytes s.
Proof.
  induction s as [|c r IH]; intros H; cbn [total bytes]; [lia|]. pose proof (H c (or_introl eq_refl)). pose proof (runeLen_pos c).
  specialize (IH (fun x Hx => H x (or_intror Hx))). lia.
Qed.
Lemma runeLen_mono : forall c c', c <= c' -> runeLen c <= runeLen c' <= runeLen c + 3.
Proof.
  intros c c' H. unfold runeLen. destruct (Z.ltb_spec c 128), (Z.ltb_spec c' 128), (Z.ltb_spec c 2048), (Z.ltb_spec c' 2048), (Z.ltb_spec c 65536), (Z.ltb_spec c' 65536); lia.
Qed.
Lemma seed_up : forall a c c' b, (forall x, In x b -> 0 <= x < 2 ^ 21) -> 0 <= c -> c < c' -> c' < 2 ^ 21 -> bytes a < 2 ^ 40 -> bytes b < 2 ^ 40 ->
  seedOf (a ++ c :: b) <> seedOf (a ++ c' :: b).
Proof.
  intros a c c' b Rb R0 N R1 Ba Bb H. rewrite !seedOf_sum in H. apply (proj1 (wrap_same _ _)) in H. rewrite !weighted_app in H. cbn [weighted] in H.
  pose proof (runeLen_mono c c' ltac:(lia)) as RL. pose proof (total_range b Rb) as T. pose proof (bytes_pos a) as Pa.
  replace (0 + bytes a + runeLen c') with (0 + bytes a + runeLen c + (runeLen c' - runeLen c)) in H by ring. rewrite (weighted_shift b (0 + bytes a + runeLen c) (runeLen c' - runeLen c)) in H.
  set (p := 0 + bytes a + 1) in *. set (w := weighted _ b) in *. set (u := weighted 0 a) in *. set (k := runeLen c' - runeLen c) in *.
  assert (D : ((u + (c' * p + (w + k * total b))) - (u + (c * p + w))) mod 2 ^ 64 = 0) by (rewrite Zminus_mod, <- H, Z.sub_diag; reflexivity).
  replace ((u + (c' * p + (w + k * total b))) - (u + (c * p + w))) with ((c' - c) * p + k * total b) in D by ring.
  assert (X1 : 0 < (c' - c) * p <= 2 ^ 21 * 2 ^ 40).
  { split; [apply Z.mul_pos_pos; unfold p; lia|]. apply Z.mul_le_mono_nonneg; unfold p; lia. }
  assert (X2 : 0 <= k * total b <= 3 * (2 ^ 21 * 2 ^ 40)).
  { split; [apply Z.mul_nonneg_nonneg; unfold k; lia|]. apply Z.mul_le_mono_nonneg; unfold k; lia. }
  rewrite Z.mod_small in D by lia. lia.
Qed.
