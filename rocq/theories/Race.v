(* internal/regen/rng.go used by several goroutines at once: "only uses a single variable, so concurrent
   modification by multiple goroutines is possible".  Every access to the variable is one step, and any
   order of the goroutines' steps is a run. *)
From Coq Require Import NArith ZArith Lia Bool List.
From Verif Require Import Rng.
Import ListNotations.
Local Open Scope N_scope.

(* where a goroutine stands inside Int63 (rng.go 36-48): before the test for zero (38), before the
   assignment of 1 (39), before the first or the second evaluation of the variable in the i-th of the three
   xor statements (42-44), before the assignment of that statement, or before the evaluation in 46 *)
Inductive place : Type := Check | Reset | Load1 (i : nat) | Load2 (i : nat) | Store (i : nat) | Final.
(* a goroutine: its place and the values it read for the statement it is in *)
Record goroutine : Type := mkGo { gPlace : place; gFirst : N; gSecond : N }.

(* rng.go 42-44: the shifted operand of the i-th xor statement *)
Definition shifted (i : nat) (y : N) : N :=
  match i with O => N.shiftr y 12 | S O => N.shiftl y 25 mod two64 | _ => N.shiftr y 27 end.

(* rng.go 36-48: one access of a goroutine to the variable; w is its value.  The result is the new value,
   the goroutine afterwards (ready for its next call when this one is over) and the number returned.  With
   once, a statement "x ^= x >> k" reads the variable once, as compiled code does; without it the two
   occurrences on the right are read one after the other. *)
Definition access (once : bool) (w : N) (g : goroutine) : N * goroutine * option N :=
  match gPlace g with
  | Check => (w, mkGo (if N.eqb w 0 then Reset else Load1 0) (gFirst g) (gSecond g), None)
  | Reset => (1, mkGo (Load1 0) (gFirst g) (gSecond g), None)
  | Load1 i => (w, if once then mkGo (Store i) w w else mkGo (Load2 i) w (gSecond g), None)
  | Load2 i => (w, mkGo (Store i) (gFirst g) w, None)
  | Store i => (N.lxor (gFirst g) (shifted i (gSecond g)), mkGo (if Nat.leb 2 i then Final else Load1 (S i)) (gFirst g) (gSecond g), None)
  | Final => (w, mkGo Check (gFirst g) (gSecond g), Some (rngOut w))
  end.

(* the variable, the goroutines, and the numbers returned so far (latest first) with who got them *)
Record shared : Type := mkSh { word : N; gos : nat -> goroutine; drawn : list (nat * N) }.
Definition begin (seed : N) : shared := mkSh seed (fun _ => mkGo Check 0 0) [].

(* goroutine t takes one step *)
Definition turn (once : bool) (s : shared) (t : nat) : shared :=
  match access once (word s) (gos s t) with
  | (w, g, o) => mkSh w (fun u => if Nat.eqb u t then g else gos s u) (match o with Some x => (t, x) :: drawn s | None => drawn s end)
  end.
(* the goroutines take steps in the order given *)
Definition interleave (once : bool) (order : list nat) (s : shared) : shared := fold_left (turn once) order s.

(* rng.go 46: the conversion of a uint64 to int64 *)
Definition toInt64 (n : N) : Z := if N.ltb n (2 ^ 63) then Z.of_N n else (Z.of_N n - 2 ^ 64)%Z.

(* math/rand Rand.Int31n and Int63n on the numbers drawn from position k on: a power of two masks one
   number, other limits refuse numbers above the last full round of n; "%" takes the sign of its left side.
   bits is 31 or 63 (Int31 is Int63 without its lower 32 bits); None: the numbers considered were all refused. *)
Fixpoint boundedDraw (fuel : nat) (bits : Z) (outs : nat -> Z) (k : nat) (n : Z) : option (Z * nat) :=
  match fuel with
  | O => None
  | S f =>
      let v := Z.shiftr (outs k) (63 - bits) in
      if Z.eqb (Z.land n (n - 1)) 0 then Some (Z.land v (n - 1), S k)
      else if Z.ltb (2 ^ bits - 1 - 2 ^ bits mod n) v then boundedDraw f bits outs (S k) n
      else Some (Z.rem v n, S k)
  end%Z.
(* math/rand Rand.Intn *)
Definition intnDraw (fuel : nat) (outs : nat -> Z) (k : nat) (n : Z) : option (Z * nat) :=
  boundedDraw fuel (if Z.leb n (2 ^ 31 - 1) then 31 else 63)%Z outs k n.

(* ------------------------------------------------------------------ facts *)

Lemma shifted_lt : forall i y, y < two64 -> shifted i y < two64.
Proof.
  intros i y H. unfold shifted. destruct i as [|[|i]].
  - eapply N.le_lt_trans; [apply shiftr_le|exact H].
  - apply N.mod_lt. discriminate.
  - eapply N.le_lt_trans; [apply shiftr_le|exact H].
Qed.
Lemma xor_nonzero : forall i x, x < two64 -> x <> 0 -> N.lxor x (shifted i x) <> 0.
Proof.
  intros i x H N Q. apply N. unfold shifted in Q. destruct i as [|[|i]].
  - apply (shr_zero 12); [lia|exact Q].
  - apply (shl_zero 25); [lia|exact H|exact Q].
  - apply (shr_zero 27); [lia|exact Q].
Qed.

(* everything stays a 64-bit word and what is returned is below 2^63, however statements are compiled *)
Definition ranged (s : shared) : Prop :=
  word s < two64 /\ (forall t, gFirst (gos s t) < two64 /\ gSecond (gos s t) < two64) /\ Forall (fun p => snd p < 2 ^ 63) (drawn s).
Lemma ranged_turn : forall once s t, ranged s -> ranged (turn once s t).
Proof.
  intros once s t (W & G & D). unfold turn. destruct (G t) as [G1 G2]. destruct (access once (word s) (gos s t)) as [[w g] o] eqn:E.
  assert (A : w < two64 /\ gFirst g < two64 /\ gSecond g < two64 /\ forall x, o = Some x -> x < 2 ^ 63).
  { unfold access in E. destruct (gPlace (gos s t)); try destruct once; injection E as <- <- <-; cbn [gFirst gSecond];
      repeat split; try assumption; try reflexivity; try (intros x Q; discriminate Q); try (intros x Q; injection Q as <-; apply rngOut_lt);
      try (apply lxor_lt; [assumption|apply shifted_lt; assumption]). }
  destruct A as (A1 & A2 & A3 & A4). split; [exact A1|]. split.
  - intros u. cbn [gos]. destruct (Nat.eqb u t); [auto|apply G].
  - cbn [drawn]. destruct o as [x|]; [constructor; [apply A4; reflexivity|exact D]|exact D].
Qed.
Lemma ranged_run : forall once order s, ranged s -> ranged (interleave once order s).
Proof. induction order as [|t r IH]; intros s H; [exact H|]. cbn [interleave fold_left]. apply IH, ranged_turn, H. Qed.
Lemma ranged_begin : forall seed, seed < two64 -> ranged (begin seed).
Proof. intros seed H. split; [exact H|]. split; [intros t; split; reflexivity|constructor]. Qed.

(* read once per statement, the variable is not zero as soon as a goroutine is past the test *)
Definition started (g : goroutine) : Prop := match gPlace g with Check | Reset => False | _ => True end.
Definition alive (s : shared) : Prop :=
  ((exists t, started (gos s t)) \/ drawn s <> [] -> word s <> 0) /\
  (forall t, match gPlace (gos s t) with Store i => gFirst (gos s t) = gSecond (gos s t) /\ gFirst (gos s t) <> 0 | Load2 _ => False | _ => True end) /\
  Forall (fun p => exists w, 0 < w < two64 /\ snd p = rngOut w) (drawn s).
Lemma alive_turn : forall s t, ranged s -> alive s -> alive (turn true s t).
Proof.
  intros s t (W & G & _) (Z & P & D). unfold turn. destruct (G t) as [G1 G2]. pose proof (P t) as Pt.
  assert (NZ : started (gos s t) -> word s <> 0) by (intros X; apply Z; left; exists t; exact X). unfold started in NZ.
  assert (other : forall u g, gPlace (if Nat.eqb u t then g else gos s u) = gPlace (if Nat.eqb u t then g else gos s u)) by reflexivity. clear other.
  assert (lift : forall g w (log : list (nat * N)), (started g \/ (exists u, u <> t /\ started (gos s u)) \/ log <> [] -> w <> 0) ->
    ((exists u, started ((fun u => if Nat.eqb u t then g else gos s u) u)) \/ log <> [] -> w <> 0)).
  { intros g w log H [[u X]|X]; apply H; [|right; right; exact X]. destruct (Nat.eqb_spec u t); [left; exact X|right; left; exists u; auto]. }
  unfold access. destruct (gPlace (gos s t)) eqn:Pl.
  - (* Check *) unfold alive. cbn [word gos drawn]. split; [|split; [|exact D]].
    + apply lift. intros [X|[[u [_ X]]|X]]; [|apply Z; left; exists u; exact X|apply Z; right; exact X].
      unfold started in X. cbn [gPlace] in X. destruct (N.eqb_spec (word s) 0); [destruct X|assumption].
    + intros u. destruct (Nat.eqb u t); [cbn [gPlace]; destruct (N.eqb (word s) 0); exact I|apply P].
  - (* Reset *) unfold alive. cbn [word gos drawn]. split; [intros _; discriminate|]. split; [|exact D].
    intros u. destruct (Nat.eqb u t); [exact I|apply P].
  - (* Load1 *) unfold alive. cbn [word gos drawn]. split; [intros _; apply NZ; exact I|]. split; [|exact D].
    intros u. destruct (Nat.eqb u t); [cbn [gPlace gFirst gSecond]; split; [reflexivity|apply NZ; exact I]|apply P].
  - destruct Pt.
  - (* Store *) destruct Pt as [Q NQ]. unfold alive. cbn [word gos drawn]. split; [intros _; rewrite <- Q; apply xor_nonzero; assumption|]. split; [|exact D].
    intros u. destruct (Nat.eqb u t); [cbn [gPlace]; destruct (Nat.leb 2 i); exact I|apply P].
  - (* Final *) unfold alive. cbn [word gos drawn]. split; [intros _; apply NZ; exact I|]. split.
    + intros u. destruct (Nat.eqb u t); [exact I|apply P].
    + constructor; [|exact D]. exists (word s). split; [|reflexivity]. specialize (NZ I). lia.
Qed.
Lemma alive_run : forall order s, ranged s -> alive s -> alive (interleave true order s) /\ (word s <> 0 -> word (interleave true order s) <> 0).
Proof.
  induction order as [|t r IH]; intros s R A; [auto|]. cbn [interleave fold_left].
  destruct (IH (turn true s t) (ranged_turn true s t R) (alive_turn s t R A)) as [A' W']. split; [exact A'|]. intros N. apply W'.
  destruct A as (Z & P & _). pose proof (P t) as Pt. destruct R as (_ & G & _). destruct (G t) as [G1 G2]. unfold turn, access. destruct (gPlace (gos s t)); cbn [word]; try exact N; try discriminate.
  destruct Pt as [Q NQ]. rewrite <- Q. apply xor_nonzero; assumption.
Qed.
Lemma alive_begin : forall seed, alive (begin seed).
Proof. intros seed. split; [intros [[t []]|X]; destruct X; reflexivity|]. split; [intros t; exact I|constructor]. Qed.

(* a goroutine left alone finishes its next call as the sequential program does *)
Lemma turns : forall once t n s, interleave once (repeat t (S n)) s = interleave once (repeat t n) (turn once s t).
Proof. reflexivity. Qed.
Lemma turn_eq : forall once w gs log t g w' g' o, gs t = g -> access once w g = (w', g', o) ->
  turn once (mkSh w gs log) t = mkSh w' (fun u => if Nat.eqb u t then g' else gs u) (match o with Some x => (t, x) :: log | None => log end).
Proof. intros once w gs log t g w' g' o H E. unfold turn. cbn [word gos drawn]. rewrite H, E. reflexivity. Qed.
Ltac stepOn HT := rewrite turns; erewrite turn_eq; [|cbv beta; rewrite ?Nat.eqb_refl; first [exact HT|reflexivity]|cbn [access gPlace gFirst gSecond Nat.leb]; reflexivity].
Lemma call_alone : forall once t s, gPlace (gos s t) = Check ->
  exists m, let s' := interleave once (repeat t m) s in
    word s' = rngNext (word s) /\ drawn s' = (t, rngOut (rngNext (word s))) :: drawn s /\ gPlace (gos s' t) = Check /\ forall u, u <> t -> gos s' u = gos s u.
Proof.
  intros once t s H.
  assert (X : forall w x y log gs, (forall u, u <> t -> gs u = gos s u) -> gs t = mkGo (Load1 0) x y -> log = drawn s ->
    exists m, let s' := interleave once (repeat t m) (mkSh w gs log) in
    word s' = N.lxor (N.lxor (N.lxor w (shifted 0 w)) (shifted 1 (N.lxor w (shifted 0 w)))) (shifted 2 (N.lxor (N.lxor w (shifted 0 w)) (shifted 1 (N.lxor w (shifted 0 w))))) /\
    drawn s' = (t, rngOut (word s')) :: drawn s /\ gPlace (gos s' t) = Check /\ forall u, u <> t -> gos s' u = gos s u).
  { intros w x y log gs HU HT ->. destruct once.
    - exists 7%nat. cbv zeta. do 7 stepOn HT.
      cbn [interleave repeat fold_left word gos drawn]. split; [reflexivity|]. split; [reflexivity|]. rewrite Nat.eqb_refl. split; [reflexivity|].
      intros u N. rewrite !(proj2 (Nat.eqb_neq u t) N). apply HU, N.
    - exists 10%nat. cbv zeta. do 10 stepOn HT.
      cbn [interleave repeat fold_left word gos drawn]. split; [reflexivity|]. split; [reflexivity|]. rewrite Nat.eqb_refl. split; [reflexivity|].
      intros u N. rewrite !(proj2 (Nat.eqb_neq u t) N). apply HU, N. }
  assert (NX : forall w, w <> 0 -> N.lxor (N.lxor (N.lxor w (shifted 0 w)) (shifted 1 (N.lxor w (shifted 0 w)))) (shifted 2 (N.lxor (N.lxor w (shifted 0 w)) (shifted 1 (N.lxor w (shifted 0 w))))) = rngNext w).
  { intros w N. unfold rngNext. rewrite (proj2 (N.eqb_neq w 0) N). reflexivity. }
  destruct (N.eq_dec (word s) 0) as [E|E].
  - destruct (X 1 (gFirst (gos s t)) (gSecond (gos s t)) (drawn s) (fun u => if Nat.eqb u t then mkGo (Load1 0) (gFirst (gos s t)) (gSecond (gos s t)) else gos (turn once s t) u)) as [m Hm].
    + intros u N. rewrite (proj2 (Nat.eqb_neq u t) N). unfold turn, access. rewrite H. cbn [gos]. rewrite (proj2 (Nat.eqb_neq u t) N). reflexivity.
    + rewrite Nat.eqb_refl. reflexivity.
    + reflexivity.
    + exists (S (S m)). cbv zeta in *. rewrite 2 turns.
      assert (F : forall r, interleave once r (turn once (turn once s t) t) = interleave once r (mkSh 1 (fun u => if Nat.eqb u t then mkGo (Load1 0) (gFirst (gos s t)) (gSecond (gos s t)) else gos (turn once s t) u) (drawn s))).
      { intros r. f_equal.
        assert (F1 : forall s1 gs x y, s1 = mkSh 0 gs (drawn s) -> gs t = mkGo Reset x y -> turn once s1 t = mkSh 1 (fun u => if Nat.eqb u t then mkGo (Load1 0) x y else gs u) (drawn s)).
        { intros s1 gs x y -> Q. erewrite turn_eq; [|exact Q|cbn [access gPlace gFirst gSecond]; reflexivity]. reflexivity. }
        apply F1; unfold turn, access; rewrite H, E; cbn [N.eqb gos]; [reflexivity|rewrite Nat.eqb_refl; reflexivity]. }
      rewrite F. rewrite E. change (rngNext 0) with (rngNext 1). rewrite <- (NX 1) by discriminate. destruct Hm as (A & B & C & D). split; [exact A|]. split; [rewrite B, A; reflexivity|]. split; [exact C|exact D].
  - destruct (X (word s) (gFirst (gos s t)) (gSecond (gos s t)) (drawn s) (gos (turn once s t))) as [m Hm].
    + intros u N. unfold turn, access. rewrite H. cbn [gos]. rewrite (proj2 (Nat.eqb_neq u t) N). reflexivity.
    + unfold turn, access. rewrite H. cbn [gos]. rewrite Nat.eqb_refl, (proj2 (N.eqb_neq _ _) E). reflexivity.
    + reflexivity.
    + exists (S m). cbv zeta in *. rewrite turns.
      assert (F : turn once s t = mkSh (word s) (gos (turn once s t)) (drawn s)) by (unfold turn, access; rewrite H; reflexivity).
      rewrite F. rewrite <- (NX (word s) E). destruct Hm as (A & B & C & D). split; [exact A|]. split; [rewrite B, A; reflexivity|]. split; [exact C|exact D].
Qed.
Lemma interleave_app : forall once a b s, interleave once (a ++ b) s = interleave once b (interleave once a s).
Proof. intros. unfold interleave. apply fold_left_app. Qed.
Lemma calls_alone : forall once t k s, gPlace (gos s t) = Check ->
  exists m, let s' := interleave once (repeat t m) s in
    word s' = snd (rngDraws k (word s)) /\ drawn s' = (rev (map (fun o => (t, o)) (fst (rngDraws k (word s)))) ++ drawn s)%list /\ gPlace (gos s' t) = Check.
Proof.
  induction k as [|k IH]; intros s H; [exists O; auto|].
  destruct (call_alone once t s H) as (m1 & A & B & C & _). destruct (IH _ C) as (m2 & A2 & B2 & C2).
  exists (m1 + m2)%nat. rewrite repeat_app, interleave_app. cbv zeta in *. cbn [rngDraws]. unfold rngInt63.
  rewrite A in A2, B2. destruct (rngDraws k (rngNext (word s))) as [os s2] eqn:E. cbn [fst snd] in *.
  split; [exact A2|]. split; [|exact C2]. rewrite B2, B. cbn [map rev]. rewrite <- app_assoc. reflexivity.
Qed.

Lemma land_mask : forall n v, (1 <= n -> 0 <= Z.land v (n - 1) < n)%Z.
Proof.
  intros n v H. assert (P : (0 <= Z.land v (n - 1))%Z) by (apply Z.land_nonneg; lia). split; [exact P|].
  assert (L : (Z.land v (n - 1) <= n - 1)%Z); [|lia].
  apply Z.ldiff_le; [lia|]. apply Z.bits_inj. intros i. rewrite Z.ldiff_spec, Z.land_spec, Z.bits_0. destruct (Z.testbit v i), (Z.testbit (n - 1) i); reflexivity.
Qed.
Lemma bounded_lt : forall fuel bits outs k n v k', (1 <= n)%Z -> (forall i, 0 <= outs i)%Z -> boundedDraw fuel bits outs k n = Some (v, k') -> (0 <= v < n)%Z.
Proof.
  induction fuel as [|f IH]; intros bits outs k n v k' H Ho E; [discriminate|]. cbn [boundedDraw] in E.
  destruct (Z.eqb (Z.land n (n - 1)) 0); [injection E as <- _; apply land_mask, H|].
  destruct (Z.ltb _ _); [exact (IH _ _ _ _ _ _ H Ho E)|]. injection E as <- _.
  apply Z.rem_bound_pos; [apply Z.shiftr_nonneg, Ho|lia].
Qed.

(* a goroutine left alone finishes the call it is in *)
Definition ends (once : bool) (t : nat) (s : shared) : Prop :=
  exists m o, let s' := interleave once (repeat t m) s in gPlace (gos s' t) = Check /\ drawn s' = (t, o) :: drawn s.
Lemma ends_turn : forall once t s, drawn (turn once s t) = drawn s -> ends once t (turn once s t) -> ends once t s.
Proof. intros once t s D (m & o & A & B). exists (S m), o. rewrite turns. cbv zeta. split; [exact A|]. rewrite B, D. reflexivity. Qed.
Lemma call_ends : forall once t s, ends once t s.
Proof.
  intros once t.
  assert (E0 : forall s, gPlace (gos s t) = Final -> ends once t s).
  { intros s H. exists 1%nat, (rngOut (word s)). cbn [repeat interleave fold_left]. unfold turn, access. rewrite H. cbn [gos drawn]. rewrite Nat.eqb_refl. split; reflexivity. }
  assert (E1 : forall i s, (2 <= i)%nat -> gPlace (gos s t) = Store i -> ends once t s).
  { intros i s L H. apply ends_turn; [unfold turn, access; rewrite H; reflexivity|]. apply E0. unfold turn, access. rewrite H. cbn [gos]. rewrite Nat.eqb_refl. cbn [gPlace].
    destruct (Nat.leb_spec 2 i); [reflexivity|lia]. }
  assert (E2 : forall (P : nat -> Prop), (forall i s, P i -> gPlace (gos s t) = Store i -> ends once t s) -> forall i s, P i -> gPlace (gos s t) = Load2 i -> ends once t s).
  { intros P HP i s L H. apply ends_turn; [unfold turn, access; rewrite H; reflexivity|]. apply (HP i); [exact L|]. unfold turn, access. rewrite H. cbn [gos]. rewrite Nat.eqb_refl. reflexivity. }
  assert (E3 : forall (P : nat -> Prop), (forall i s, P i -> gPlace (gos s t) = Store i -> ends once t s) -> forall i s, P i -> gPlace (gos s t) = Load1 i -> ends once t s).
  { intros P HP i s L H. apply ends_turn; [unfold turn, access; rewrite H; reflexivity|].
    destruct once eqn:O; [apply (HP i); [exact L|]|apply (E2 P HP i); [exact L|]]; unfold turn, access; rewrite H; cbn [gos]; rewrite Nat.eqb_refl; reflexivity. }
  assert (E4 : forall j i s, (j + i = 2)%nat \/ (2 <= i)%nat -> gPlace (gos s t) = Store i -> ends once t s).
  { induction j as [|j IH]; intros i s L H; [apply (E1 i); [lia|exact H]|]. destruct (Nat.le_gt_cases 2 i) as [Q|Q]; [exact (E1 i s Q H)|].
    apply ends_turn; [unfold turn, access; rewrite H; reflexivity|].
    apply (E3 (fun k => (j + k = 2)%nat \/ (2 <= k)%nat) IH (S i)); [lia|]. unfold turn, access. rewrite H. cbn [gos]. rewrite Nat.eqb_refl. cbn [gPlace]. destruct (Nat.leb_spec 2 i); [lia|reflexivity]. }
  assert (E5 : forall i s, gPlace (gos s t) = Store i -> ends once t s).
  { intros i s H. apply (E4 (2 - i)%nat i); [lia|exact H]. }
  assert (E6 : forall i s, gPlace (gos s t) = Load1 i -> ends once t s) by (intros i s H; apply (E3 (fun _ => True)) with i; [intros; eapply E5; eauto|exact I|exact H]).
  assert (E7 : forall s, gPlace (gos s t) = Reset -> ends once t s).
  { intros s H. apply ends_turn; [unfold turn, access; rewrite H; reflexivity|]. apply (E6 O). unfold turn, access. rewrite H. cbn [gos]. rewrite Nat.eqb_refl. reflexivity. }
  intros s. destruct (gPlace (gos s t)) eqn:H.
  - destruct (call_alone once t s H) as (m & A & B & C & _). exists m, (rngOut (rngNext (word s))). split; assumption.
  - apply E7, H.
  - apply (E6 _ _ H).
  - apply (E2 (fun _ => True)) with i; [intros; eapply E5; eauto|exact I|exact H].
  - apply (E5 _ _ H).
  - apply E0, H.
Qed.
