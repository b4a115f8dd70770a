(* internal/regen: character classes and the random generator of strings for a regular expression. *)
From Coq Require Import ZArith List String Bool Lia.
From Verif Require Import Base Number.
Import ListNotations.
Open Scope string_scope.
Open Scope Z_scope.

(* ------------------------------------------------------------------ char_class.go *)

(* int32 arithmetic *)
Definition wrap32 (z : Z) : Z := (z + 2 ^ 31) mod 2 ^ 32 - 2 ^ 31.

(* char_class.go 98-113 newCharClassRange: (Start, Size) *)
Definition newRange (lo hi : Z) : res (Z * Z) :=
  if lo <? 1 then Panic "char class range cannot contain runes less than 1"
  else let size := wrap32 (hi - lo + 1) in
       if size <? 1 then Panic "char class range size must be at least 1" else Ok (lo, size).

(* char_class.go 57-83 parseCharClass.  The runes come in pairs (first, last) from regexp/syntax. *)
Fixpoint parseClass (l : list (Z * Z)) : res (list (Z * Z)) :=
  match l with
  | [] => Ok []
  | (lo, hi) :: r =>
      let! x := newRange (if lo =? 0 then 1 else lo) hi in
      let! xs := parseClass r in Ok (x :: xs)
  end.
(* char_class.go 76 totalSize += r.Size *)
Definition totalSize (rs : list (Z * Z)) : Z := fold_left (fun a r => wrap32 (a + snd r)) rs 0.

(* char_class.go 86-94 GetRuneAt *)
Fixpoint runeAt (rs : list (Z * Z)) (i : Z) : res Z :=
  match rs with
  | [] => Panic "index out of bounds"
  | (start, size) :: r => if i <? size then Ok (start + i) else runeAt r (i - size)
  end.

(* ------------------------------------------------------------------ expressions *)

(* The syntax trees of regexp/syntax (standard library).  Flags are left out: a case-insensitive literal
   and a non-greedy operator are generated like any other. *)
Inductive regex : Type :=
  | ENoMatch | EEmpty
  | ELiteral (rs : list Z) | EClass (l : list (Z * Z)) | EAnyNotNL | EAny
  | EBeginLine | EEndLine | EBeginText | EEndText | EWordB | ENoWordB
  | ECapture (r : regex) | EStar (r : regex) | EPlus (r : regex) | EQuest (r : regex)
  | ERepeat (lo hi : Z) (r : regex)
  | EConcat (l : list regex) | EAlt (l : list regex).

(* regen.go 118-148 GeneratorArgs: the fields the generators read.  Counts are uint in the code. *)
Record rargs : Type := mkArgs { aMin : Z; aMax : Z; aAscii : bool }.

(* regen.go 150-180 initialize; the first argument says that UnicodeGroups is set without Perl *)
Definition initArgs (badFlags : bool) (a : rargs) : res (err rargs) :=
  if badFlags then Ok (Bad "UnicodeGroups not supported")
  else
    let mx := if aMax a <? 1 then 4096 else aMax a in
    if aMin a >? mx then Panic "MinUnboundedRepeatCount > MaxUnboundedRepeatCount"
    else Ok (Good (mkArgs (aMin a) mx (aAscii a))).

(* internal_generator.go 59-62 internalGenerator.  The closures of the code as data; a capture group is
   its content (defaultCaptureGroupHandler, 220-222; other handlers are not modelled). *)
Inductive rgen : Type :=
  | RText (rs : list Z)
  | RAny
  | RClass (rs : list (Z * Z))
  | RRep (lo hi : Z) (g : rgen)
  | RCat (l : list rgen)
  | RAlt (l : list rgen).

(* internal_generator.go 73-86 newGenerators *)
Definition newGens (f : regex -> res (err rgen)) : list regex -> res (err (list rgen)) :=
  fix go l :=
    match l with
    | [] => Ok (Good [])
    | r :: rest =>
        let! g := f r in
        match g with
        | Bad m => Ok (Bad m)
        | Good g =>
            let! gs := go rest in
            Ok (match gs with Bad m => Bad m | Good gs => Good (g :: gs) end)
        end
    end.

Section Generator.
(* syntax.Regexp.Simplify (standard library) *)
Variable simp : regex -> regex.
Variable a : rargs.

(* internal_generator.go 256-283 createRepeatingGenerator: noBound is -1 *)
Definition repGen (f : regex -> res (err rgen)) (r : regex) (lo hi : Z) : res (err rgen) :=
  let! g := f r in
  Ok (match g with
      | Bad m => Bad m
      | Good g => Good (RRep (if lo =? -1 then aMin a else lo) (if hi =? -1 then aMax a else hi) g)
      end).

(* internal_generator.go 89-99 newGenerator and the factories 101-222.  Simplify need not return a smaller
   tree, so the recursion runs on fuel. *)
Fixpoint newGen (fuel : nat) (r : regex) : res (err rgen) :=
  match fuel with
  | O => Timeout
  | S f =>
      match simp r with
      | ENoMatch => Ok (Bad "invalid generator pattern")
      | EEmpty | EBeginLine | EEndLine | EBeginText | EEndText | EWordB | ENoWordB => Ok (Good (RText []))
      | ELiteral rs => Ok (Good (RText rs))
      | EAny => Ok (Good RAny)
      | EAnyNotNL =>
          (* 130-139: newCharClass(32, 93), or newCharClass(0, MaxInt32) *)
          let! x := (if aAscii a then newRange 32 93 else newRange 0 (2 ^ 31 - 1)) in Ok (Good (RClass [x]))
      | EClass l => let! rs := parseClass l in Ok (Good (RClass rs))
      | EQuest s => repGen (newGen f) s 0 1
      | EStar s => repGen (newGen f) s (-1) (-1)
      | EPlus s => repGen (newGen f) s 1 (-1)
      | ERepeat lo hi s => repGen (newGen f) s lo hi
      | ECapture s => newGen f s
      | EConcat l => let! gs := newGens (newGen f) l in Ok (match gs with Bad m => Bad m | Good gs => Good (RCat gs) end)
      | EAlt l => let! gs := newGens (newGen f) l in Ok (match gs with Bad m => Bad m | Good gs => Good (RAlt gs) end)
      end
  end.

(* math/rand on the xorshift source: rd k n is the k-th number drawn, asked for below n.  Intn and Int31n
   panic when n is not positive. *)
Variable rd : nat -> Z -> Z.
Definition intn (n : Z) (k : nat) : res (Z * nat) :=
  if n <? 1 then Panic "invalid argument to Intn" else Ok (rd k n, S k).

(* a rune written to a string: what is not a Unicode scalar value becomes U+FFFD *)
Definition scalar (r : Z) : bool := (0 <=? r) && (r <=? 1114111) && negb ((55296 <=? r) && (r <=? 57343)).
Definition written (r : Z) : Z := if scalar r then r else 65533.

Definition catGen (f : rgen -> nat -> res (list Z * nat)) : list rgen -> nat -> res (list Z * nat) :=
  fix go l k :=
    match l with
    | [] => Ok ([], k)
    | g :: r => let! x := f g k in let! y := go r (snd x) in Ok ((fst x ++ fst y)%list, snd y)
    end.
Definition repGenerate (f : nat -> res (list Z * nat)) : nat -> nat -> res (list Z * nat) :=
  fix go n k :=
    match n with
    | O => Ok ([], k)
    | S n' => let! x := f k in let! y := go n' (snd x) in Ok ((fst x ++ fst y)%list, snd y)
    end.
Definition pickGen (f : rgen -> nat -> res (list Z * nat)) : list rgen -> Z -> nat -> res (list Z * nat) :=
  fix go l i k :=
    match l with
    | [] => Panic "index out of range"
    | g :: r => if i =? 0 then f g k else go r (i - 1) k
    end.

(* Generate: the runes of the string, and the number of draws made so far.  internal_generator.go 113
   literals, 121-127 any character, 238-250 createCharClassGenerator, 270-281 repetition, 180-186 concat,
   199-203 alternate. *)
Fixpoint rgenerate (g : rgen) (k : nat) : res (list Z * nat) :=
  match g with
  | RText rs => Ok (map written rs, k)
  | RAny =>
      if aAscii a then let! x := intn 92 k in Ok ([written (fst x + 32)], snd x)
      else let! x := intn (2 ^ 31) k in Ok ([written (fst x)], snd x)
  | RClass rs =>
      let! x := intn (totalSize rs) k in
      let! y := (if 100000 <? totalSize rs then let! z := intn 93 (snd x) in Ok (fst z + 32, snd z) else Ok x) in
      let! c := runeAt rs (fst y) in Ok ([written c], snd y)
  | RRep lo hi s =>
      let! x := intn (hi - lo + 1) k in
      repGenerate (rgenerate s) (Z.to_nat (lo + fst x)) (snd x)
  | RCat l => catGen rgenerate l k
  | RAlt l => let! x := intn (Z.of_nat (List.length l)) k in pickGen rgenerate l (fst x) (snd x)
  end.

End Generator.
