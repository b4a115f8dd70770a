(* rand/random.go: the random helpers, as functions of the raw 63-bit draws of the source.
   A source of randomness is an arbitrary stream nat -> Z; nothing is assumed about it, so every
   theorem holds for every seed and every schedule of draws. *)
From Coq Require Import ZArith List String Bool.
From Flocq Require Import Core BinarySingleNaN.
From Verif Require Import Base Float64.
Import ListNotations.
Open Scope string_scope.
Open Scope Z_scope.

(* math/rand Intn: panics unless n > 0, otherwise a value in [0, n) chosen by the draw d *)
Definition intn (n d : Z) : res Z :=
  if n <=? 0 then Panic "invalid argument to Intn" else Ok (d mod n).

(* math/rand Float64: float64(Int63()) / 2^63, redrawn while it equals 1.  Exactly the draws below
   2^63 - 512 round to less than 1, so the accepted draw is d mod (2^63 - 512). *)
Definition rfloat (d : Z) : f64 := fdiv (fofZ (d mod (2 ^ 63 - 512))) (fofZ (2 ^ 63)).

(* random.go 59-67 RandomInt (the draw is only consumed when min <> max) *)
Definition randomInt (mn mx d : Z) : res Z :=
  if mn =? mx then Ok mn
  else let! r := intn (wrap64 (mx - mn)) d in Ok (wrap64 (r + mn)).

(* random.go 70-72 RandomFloat *)
Definition randomFloat (mn mx : f64) (d : Z) : f64 :=
  fadd (fmul (rfloat d) (fsub mx mn)) mn.

(* random.go 75-77 RandomBool *)
Definition randomBool (d : Z) : bool := d mod 2 =? 1.

(* random.go 37-39, 42-44 Choice / StringChoice *)
Definition choice {A} (l : list A) (d : Z) : res A :=
  let! i := intn (Z.of_nat (List.length l)) d in
  match nth_error l (Z.to_nat i) with Some x => Ok x | None => Panic "index out of range" end.

(* math/rand Perm (Go 1): m[i] = m[j]; m[j] = i with j = Intn(i+1); step i uses draw ds i *)
Definition upd_nth {A} (l : list A) (i : nat) (x : A) : list A :=
  firstn i l ++ x :: skipn (S i) l.
Fixpoint perm_loop (i n : nat) (ds : nat -> Z) (m : list nat) : list nat :=
  match n with
  | O => m
  | S n' =>
      let j := Z.to_nat (ds i mod Z.of_nat (S i)) in
      let m' := (m ++ [nth j (m ++ [i]) i])%list in
      perm_loop (S i) n' ds (upd_nth m' j i)
  end.
Definition perm (n : nat) (ds : nat -> Z) : list nat := perm_loop 0 n ds [].

(* funk.Shuffle: out[i] = in[perm[i]], drawn from the global source *)
Definition shuffle {A} (d : A) (l : list A) (ds : nat -> Z) : list A :=
  map (fun i => nth i l d) (perm (List.length l) ds).
