(* C61: several goroutines drawing from one source of the regular-expression generator. *)
From Coq Require Import NArith ZArith Lia Bool List.
From Verif Require Import Base Number Rng Race Regen SpecRegex RegenProps RegenSimplify P_Regen.
Import ListNotations.
Local Open Scope N_scope.

(* Whatever the order in which any number of goroutines access the source, and however the statements are
   compiled, every number returned is a non-negative 63-bit number. *)
Theorem C61_numbers : forall once order seed, seed < 2 ^ 64 ->
  word (interleave once order (begin seed)) < 2 ^ 64 /\ Forall (fun p => snd p < 2 ^ 63) (drawn (interleave once order (begin seed))).
Proof. intros once order seed H. destruct (ranged_run once order _ (ranged_begin seed H)) as (A & _ & B). split; assumption. Qed.
Print Assumptions C61_numbers.

(* Compiled with one read per statement, the source never becomes zero: from a seed other than zero it is
   never zero, from zero it is not once a number was returned, and every number comes from a state that is
   not zero. *)
Theorem C61_never_zero : forall order seed, seed < 2 ^ 64 ->
  let s := interleave true order (begin seed) in
  (seed <> 0 \/ drawn s <> [] -> word s <> 0) /\ Forall (fun p => exists w, 0 < w < 2 ^ 64 /\ snd p = rngOut w) (drawn s).
Proof.
  intros order seed H s. destruct (alive_run order _ (ranged_begin seed H) (alive_begin seed)) as [(A & _ & B) C].
  split; [|exact B]. intros [X|X]; [apply C, X|apply A; right; exact X].
Qed.
Print Assumptions C61_never_zero.

(* With two reads per statement it may become zero: two goroutines, ten accesses. *)
Theorem C61_zero_refuted : exists order seed, 0 < seed < 2 ^ 64 /\ word (interleave false order (begin seed)) = 0.
Proof. exists [0; 0; 1; 1; 1; 1; 1; 1; 1; 0; 0]%nat, 643449921464613. split; [lia|]. vm_compute. reflexivity. Qed.
Print Assumptions C61_zero_refuted.

(* Even then nothing gets stuck: after any order, a goroutine left alone finishes its call, and its next call
   returns what the sequential program returns, leaving a state that is not zero. *)
Theorem C61_recovers : forall once order seed t, seed < 2 ^ 64 ->
  let s := interleave once order (begin seed) in
  exists m1 m2 o, let s1 := interleave once (repeat t m1) s in let s2 := interleave once (repeat t m2) s1 in
    drawn s1 = (t, o) :: drawn s /\ drawn s2 = (t, rngOut (rngNext (word s1))) :: drawn s1 /\ word s2 = rngNext (word s1) /\ 0 < word s2 < 2 ^ 64.
Proof.
  intros once order seed t H s. destruct (call_ends once t s) as (m1 & o & A & B). destruct (call_alone once t _ A) as (m2 & C & D & _ & _).
  exists m1, m2, o. cbv zeta in *. split; [exact B|]. split; [exact D|]. split; [exact C|]. rewrite C. apply rngNext_ok.
  apply (ranged_run once (repeat t m1) s). apply ranged_run, ranged_begin, H.
Qed.
Print Assumptions C61_recovers.

(* A goroutine that is alone draws the sequential numbers. *)
Theorem C61_alone : forall once t k seed, exists m, let s := interleave once (repeat t m) (begin seed) in
  word s = snd (rngDraws k seed) /\ rev (map snd (drawn s)) = fst (rngDraws k seed).
Proof.
  intros once t k seed. destruct (calls_alone once t k (begin seed) eq_refl) as (m & A & B & _). exists m. cbv zeta in *. split; [exact A|].
  rewrite B. cbn [begin drawn word]. rewrite app_nil_r, map_rev, rev_involutive, map_map. cbn [snd]. apply map_id.
Qed.
Print Assumptions C61_alone.

(* Different goroutines may get the same number where one after the other they would not. *)
Theorem C61_different_refuted : exists order seed o, 0 < seed < 2 ^ 64 /\
  drawn (interleave true order (begin seed)) = [(1%nat, o); (0%nat, o)] /\ exists o', fst (rngDraws 2 seed) = [o; o'] /\ o' <> o.
Proof.
  exists [0; 1; 0; 1; 0; 1; 0; 1; 0; 1; 0; 1; 0; 1; 0; 1]%nat, 1, 2590246147603197582. split; [lia|]. split; [vm_compute; reflexivity|].
  exists 6190148572457775758. split; [vm_compute; reflexivity|discriminate].
Qed.
Print Assumptions C61_different_refuted.

(* Whatever a goroutine got this way, as an int64, choosing below n with it gives a number from 0 to n - 1. *)
Theorem C61_choice : forall once order seed t fuel outs k n v k', seed < 2 ^ 64 -> (1 <= n)%Z ->
  (forall i, In (t, outs i) (drawn (interleave once order (begin seed)))) ->
  intnDraw fuel (fun i => toInt64 (outs i)) k n = Some (v, k') -> (0 <= v < n)%Z.
Proof.
  intros once order seed t fuel outs k n v k' H Hn Ho E. refine (bounded_lt _ _ _ _ _ _ _ Hn _ E). intros i.
  destruct (C61_numbers once order seed H) as [_ D]. rewrite Forall_forall in D. specialize (D _ (Ho i)). cbn [snd] in D. unfold toInt64.
  destruct (N.ltb_spec (outs i) (2 ^ 63)); lia.
Qed.
Print Assumptions C61_choice.

Example C61_choice_case : exists v k', intnDraw 3 (fun _ => toInt64 2590246147603197582) 0 10 = Some (v, k') /\
  In (0%nat, 2590246147603197582) (drawn (interleave true (repeat 0%nat 8) (begin 1))).
Proof. eexists. eexists. split; [vm_compute; reflexivity|]. vm_compute. left. reflexivity. Qed.

(* So the texts generated while others use the same source match their expression as well.  Missing from the
   full statement: the expressions C09_matches_partial leaves out.  Limits are int32; what rd says for larger
   ones does not matter. *)
Theorem C61_texts_partial : forall simp a rd once order seed t, simplifies simp -> seed < 2 ^ 64 ->
  (forall k n, (1 <= n < 2 ^ 31)%Z -> exists fuel outs j j', (forall i, In (t, outs i) (drawn (interleave once order (begin seed)))) /\
     intnDraw fuel (fun i => toInt64 (outs i)) j n = Some (rd k n, j')) -> (forall k n, 2 ^ 31 <= n -> 0 <= rd k n < n)%Z ->
  forall r, anchorsAtEnds true true r = true -> cleanText r ->
  forall fuel g, newGen simp a fuel r = Ok (Good g) -> forall k w k', rgenerate a rd g k = Ok (w, k') -> fullMatch r w.
Proof.
  intros simp a rd once order seed t Hs H Hrd Hbig r A C fuel g E k w k' G. apply (C09_matches_partial simp a rd Hs) with (fuel := fuel) (g := g) (k := k) (k' := k'); try assumption.
  intros i n Hn. destruct (Z.lt_ge_cases n (2 ^ 31)) as [L|L]; [|apply Hbig, L]. destruct (Hrd i n (conj Hn L)) as (f & outs & j & j' & Ho & X). exact (C61_choice once order seed t f outs j n _ _ H Hn Ho X).
Qed.
Print Assumptions C61_texts_partial.

Example C61_texts_case : exists rd, (forall (k : nat) n, (1 <= n < 2 ^ 31)%Z -> exists fuel outs j j', (forall i, In (0%nat, outs i) (drawn (interleave true (repeat 0%nat 8) (begin 1)))) /\
  intnDraw fuel (fun i => toInt64 (outs i)) j n = Some (rd k n, j')) /\ (forall (k : nat) n, 2 ^ 31 <= n -> 0 <= rd k n < n)%Z.
Proof.
  exists (fun _ n => match intnDraw 1 (fun _ => toInt64 2590246147603197582) 0 (Z.min n (2 ^ 31 - 1)) with Some (v, _) => v | None => 0%Z end).
  assert (D : forall n, (1 <= n < 2 ^ 31)%Z -> exists v, intnDraw 1 (fun _ => toInt64 2590246147603197582) 0 n = Some (v, 1%nat)).
  { intros n H. unfold intnDraw. destruct (Z.leb_spec n (2 ^ 31 - 1)); [|lia]. cbn [boundedDraw].
    destruct (Z.eqb (Z.land n (n - 1)) 0); [eexists; reflexivity|].
    assert (V : Z.shiftr (toInt64 2590246147603197582) (63 - 31) = 603088677%Z) by (vm_compute; reflexivity). rewrite V.
    destruct (Z.ltb_spec (2 ^ 31 - 1 - 2 ^ 31 mod n) 603088677) as [Q|Q]; [|eexists; reflexivity]. exfalso.
    destruct (Z.le_gt_cases n (2 ^ 30)) as [L|L].
    - pose proof (Z.mod_pos_bound (2 ^ 31) n ltac:(lia)). lia.
    - assert (2 ^ 31 mod n = 2 ^ 31 - n)%Z by (symmetry; apply (Z.mod_unique (2 ^ 31) n 1); lia). lia. }
  split.
  - intros _ n H. exists 1%nat, (fun _ => 2590246147603197582), 0%nat, 1%nat. split; [intros _; vm_compute; left; reflexivity|].
    rewrite Z.min_l by lia. destruct (D n H) as [v ->]. reflexivity.
  - intros _ n H. rewrite Z.min_r by lia. vm_compute (intnDraw _ _ _ _). lia.
Qed.

(* three goroutines: one interrupted twice *)
Example C61_case : drawn (interleave true [0; 1; 1; 2; 1; 1; 1; 1; 1; 1; 0; 0; 0; 0; 0; 0; 0]%nat (begin 7)) <> [] /\ word (interleave true [0; 1; 1; 2; 1; 1; 1; 1; 1; 1; 0; 0; 0; 0; 0; 0; 0]%nat (begin 7)) <> 0.
Proof. split; vm_compute; discriminate. Qed.
