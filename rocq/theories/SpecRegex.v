(* What it means for text to match a regular expression, independently of the generator in Regen.v.
   Text is a list of runes. *)
From Coq Require Import ZArith List Bool Lia.
From Verif Require Import Regen.
Import ListNotations.
Open Scope Z_scope.

(* the members of a class given by its ranges (first, last) *)
Definition inClass (l : list (Z * Z)) (c : Z) : Prop := exists lo hi, In (lo, hi) l /\ lo <= c <= hi.
(* ranges in increasing order, disjoint, within the runes, starting at lo or later: what regexp/syntax produces *)
Fixpoint normal (from : Z) (l : list (Z * Z)) : Prop :=
  match l with [] => True | (lo, hi) :: r => from <= lo /\ lo <= hi /\ hi <= 1114111 /\ normal (hi + 1) r end.

Definition newline : Z := 10.
Definition wordRune (c : Z) : bool :=
  ((48 <=? c) && (c <=? 57)) || ((65 <=? c) && (c <=? 90)) || (c =? 95) || ((97 <=? c) && (c <=? 122)).
Definition wordBefore (pre : list Z) : bool := wordRune (last pre 0).
Definition wordAfter (post : list Z) : bool := wordRune (hd 0 post).

(* matches r pre mid post: r matches mid where it stands between pre and post.  Repetition is n copies in a
   row.  A case-insensitive literal matches more than is said here, never less. *)
Inductive matches : regex -> list Z -> list Z -> list Z -> Prop :=
  | mEmpty : forall pre post, matches EEmpty pre [] post
  | mLiteral : forall rs pre post, matches (ELiteral rs) pre rs post
  | mClass : forall l c pre post, inClass l c -> matches (EClass l) pre [c] post
  | mAnyNotNL : forall c pre post, c <> newline -> matches EAnyNotNL pre [c] post
  | mAny : forall c pre post, matches EAny pre [c] post
  | mBeginLine : forall pre post, pre = [] \/ last pre 0 = newline -> matches EBeginLine pre [] post
  | mEndLine : forall pre post, post = [] \/ hd 0 post = newline -> matches EEndLine pre [] post
  | mBeginText : forall post, matches EBeginText [] [] post
  | mEndText : forall pre, matches EEndText pre [] []
  | mWordB : forall pre post, wordBefore pre <> wordAfter post -> matches EWordB pre [] post
  | mNoWordB : forall pre post, wordBefore pre = wordAfter post -> matches ENoWordB pre [] post
  | mCapture : forall r pre mid post, matches r pre mid post -> matches (ECapture r) pre mid post
  | mStar : forall r n pre mid post, inRow (repeat r n) pre mid post -> matches (EStar r) pre mid post
  | mPlus : forall r n pre mid post, (1 <= n)%nat -> inRow (repeat r n) pre mid post -> matches (EPlus r) pre mid post
  | mQuest : forall r n pre mid post, (n <= 1)%nat -> inRow (repeat r n) pre mid post -> matches (EQuest r) pre mid post
  | mRepeat : forall lo hi r n pre mid post, lo <= Z.of_nat n -> (hi = -1 \/ Z.of_nat n <= hi) ->
      inRow (repeat r n) pre mid post -> matches (ERepeat lo hi r) pre mid post
  | mConcat : forall l pre mid post, inRow l pre mid post -> matches (EConcat l) pre mid post
  | mAlt : forall l r pre mid post, In r l -> matches r pre mid post -> matches (EAlt l) pre mid post
with inRow : list regex -> list Z -> list Z -> list Z -> Prop :=
  | rNil : forall pre post, inRow [] pre [] post
  | rCons : forall r l pre u v post, matches r pre u (v ++ post) -> inRow l (pre ++ u) v post -> inRow (r :: l) pre (u ++ v) post.

(* the whole text matches *)
Definition fullMatch (r : regex) (w : list Z) : Prop := matches r [] w [].

(* ------------------------------------------------------------------ the expressions of C09 *)

Definition widthless (r : regex) : bool :=
  match r with EEmpty | EBeginLine | EEndLine | EBeginText | EEndText => true | _ => false end.

(* an anchor only at an end of the text: "atStart" says that nothing precedes this part of the expression,
   "atEnd" that nothing follows it; no word boundaries *)
Fixpoint anchorsAtEnds (atStart atEnd : bool) (r : regex) : bool :=
  match r with
  | EBeginLine | EBeginText => atStart
  | EEndLine | EEndText => atEnd
  | EWordB | ENoWordB => false
  | ECapture s | EQuest s => anchorsAtEnds atStart atEnd s
  | EStar s | EPlus s | ERepeat _ _ s => anchorsAtEnds false false s
  | EConcat l =>
      (fix go st l :=
         match l with
         | [] => true
         | x :: r => anchorsAtEnds st (atEnd && forallb widthless r) x && go (st && widthless x) r
         end) atStart l
  | EAlt l => forallb (anchorsAtEnds atStart atEnd) l
  | _ => true
  end.

(* the number of runes of the ranges, from 1 on, that are at most m *)
Definition sizeUpTo (m : Z) (l : list (Z * Z)) : Z :=
  fold_right (fun p acc => Z.max 0 (Z.min (snd p) m - Z.max 1 (fst p) + 1) + acc) 0 l.
(* no surrogates (U+D800..U+DFFF are no characters) among the runes that can be drawn from the class *)
Definition cleanClass (l : list (Z * Z)) : Prop :=
  normal 0 l /\
  ((forall c, inClass l c -> c < 55296 \/ 57343 < c) \/
   (100000 < sizeUpTo 1114111 l /\ 125 <= sizeUpTo 55295 l)).

(* literals are characters, classes are clean and bounds are in order, everywhere in the expression *)
Fixpoint cleanText (r : regex) : Prop :=
  match r with
  | ELiteral rs => Forall (fun c => scalar c = true) rs
  | EClass l => cleanClass l
  | ERepeat lo hi s => 0 <= lo /\ (hi = -1 \/ lo <= hi) /\ cleanText s
  | ECapture s | EStar s | EPlus s | EQuest s => cleanText s
  | EConcat l | EAlt l => fold_right (fun x P => cleanText x /\ P) True l
  | _ => True
  end.

(* what the standard library's Simplify is trusted for: it keeps the language, in every context, and moves
   no anchors and no runes *)
Record simplifies (simp : regex -> regex) : Prop := mkSimplifies {
  sLanguage : forall r pre mid post, matches (simp r) pre mid post -> matches r pre mid post;
  sAnchors : forall r b e, anchorsAtEnds b e r = true -> anchorsAtEnds b e (simp r) = true;
  sClean : forall r, cleanText r -> cleanText (simp r) }.

(* the expressions for which a generator exists: no expression that never matches, "." only when limited to
   ASCII, no class with the range U+0000-U+0000, bounds in order *)
Fixpoint drawable (ascii : bool) (r : regex) : Prop :=
  match r with
  | ENoMatch => False
  | EAnyNotNL => ascii = true
  | EClass l => l <> [] /\ normal 0 l /\ ~ In (0, 0) l
  | ERepeat lo hi s => 0 <= lo /\ (hi = -1 \/ lo <= hi) /\ drawable ascii s
  | ECapture s | EStar s | EPlus s | EQuest s => drawable ascii s
  | EConcat l => fold_right (fun x P => drawable ascii x /\ P) True l
  | EAlt l => l <> [] /\ fold_right (fun x P => drawable ascii x /\ P) True l
  | _ => True
  end.
