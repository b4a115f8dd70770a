(* Properties C44 (the random source), C45 (character classes), C09 (strings from patterns) and C10 (the
   rewriting of patterns).  What matches an expression: SpecRegex.v.  Patterns as text: PatternText.v. *)
From Coq Require Import ZArith NArith List String Ascii Bool Lia.
From Verif Require Import Base Number Rng Regen SpecRegex RegenProps RegenSimplify PatternText.
Import ListNotations.
Open Scope string_scope.
Open Scope Z_scope.

(* ------------------------------------------------------------------ C44 *)

(* After any number of draws the state is not zero, and every number drawn is below 2^63. *)
Theorem C44_never_zero : forall (k : nat) (s : N), (0 < s < 2 ^ 64)%N ->
  (0 < snd (rngDraws k s) < 2 ^ 64)%N /\ Forall (fun o => (o < 2 ^ 63)%N) (fst (rngDraws k s)) /\ List.length (fst (rngDraws k s)) = k.
Proof.
  intros k s [H1 H2]. destruct (rngDraws_ok k s H2) as (A & B & C & D).
  repeat split; try assumption. apply B. left. assumption.
Qed.
Print Assumptions C44_never_zero.

Example C44_case : rngDraws 3 1 = ([2590246147603197582; 6190148572457775758; 6694749039465435051]%N, 3659449627584515%N).
Proof. vm_compute. reflexivity. Qed.

(* whatever the seed, even zero: from the first draw on *)
Theorem C44_any_seed : forall (seed : Z) (k : nat), (0 < snd (rngDraws (S k) (rngSeed seed)) < 2 ^ 64)%N.
Proof.
  intros seed k. destruct (rngDraws_ok (S k) _ (rngSeed_lt seed)) as (A & B & _ & _). split; [apply B; right; lia|exact A].
Qed.
Print Assumptions C44_any_seed.

(* two states never collapse into one *)
Theorem C44_distinct : forall s t, (0 < s < 2 ^ 64)%N -> (0 < t < 2 ^ 64)%N ->
  snd (rngInt63 s) = snd (rngInt63 t) -> s = t.
Proof. exact rngNext_inj. Qed.
Print Assumptions C44_distinct.

(* ------------------------------------------------------------------ C45 *)

(* Missing from the full statement: classes with the range U+0000-U+0000, refuted below. *)
Theorem C45_exact_partial : forall l, normal 0 l -> ~ In (0, 0) l ->
  exists rs, parseClass l = Ok rs /\
  (forall i, 0 <= i < totalSize rs -> exists c, runeAt rs i = Ok c /\ inClass l c /\ c <> 0) /\
  (forall c, inClass l c -> c <> 0 -> exists! i, 0 <= i < totalSize rs /\ runeAt rs i = Ok c).
Proof.
  intros l N Z0. exists (map sized l).
  assert (E : parseClass l = Ok (map sized l)) by (apply (parseClass_sized l 0); [lia|exact N|exact Z0]).
  split; [exact E|]. exact (class_exact l _ N E).
Qed.
Print Assumptions C45_exact_partial.

Example C45_case : normal 0 [(0, 9); (97, 122); (1000, 1114111)] /\ ~ In (0, 0) [(0, 9); (97, 122); (1000, 1114111)] /\
  totalSize [(1, 9); (97, 26)] = 35 /\ runeAt [(1, 9); (97, 26)] 9 = Ok 97.
Proof. split; [cbn; lia|]. split; [|split; reflexivity]. intros [X|[X|[X|[]]]]; discriminate. Qed.

(* [\x00a-z] *)
Theorem C45_null_refuted : exists l c, normal 0 l /\ inClass l c /\ c <> 0 /\ exists w, parseClass l = Panic w.
Proof.
  exists [(0, 0); (97, 122)], 98. split; [cbn; lia|]. split; [|split; [discriminate|]].
  - exists 97, 122. split; [right; left; reflexivity|lia].
  - eexists. reflexivity.
Qed.
Print Assumptions C45_null_refuted.

(* ------------------------------------------------------------------ C09 *)

(* Every generated text matches its expression, for anchors at the ends only and whatever is drawn.
   Missing from the full statement: expressions with surrogates (refuted below) and custom capture group
   handlers.  The standard library's Simplify enters as "simp". *)
Theorem C09_matches_partial : forall simp a rd, simplifies simp -> (forall k n, 1 <= n -> 0 <= rd k n < n) ->
  forall r, anchorsAtEnds true true r = true -> cleanText r ->
  forall fuel g, newGen simp a fuel r = Ok (Good g) -> forall k w k', rgenerate a rd g k = Ok (w, k') -> fullMatch r w.
Proof.
  intros simp a rd Hs Hrd r A C fuel g E k w k' G. exact (newGen_fits simp a rd Hs Hrd fuel r g E true true A C k w k' G [] [] (fun _ => eq_refl) (fun _ => eq_refl)).
Qed.
Print Assumptions C09_matches_partial.

(* There is a generator, and it always produces a text, for every expression without "." (unless limited to
   ASCII) and without the range U+0000-U+0000. *)
Theorem C09_total_partial : forall a rd, 0 <= aMin a <= aMax a /\ 1 <= aMax a -> (forall k n, 1 <= n -> 0 <= rd k n < n) ->
  forall r, drawable (aAscii a) r ->
  exists fuel g, newGen goSimplify a fuel r = Ok (Good g) /\ forall k, exists w k', rgenerate a rd g k = Ok (w, k').
Proof. exact newGen_succeeds. Qed.
Print Assumptions C09_total_partial.

(* what regen.NewGenerator makes of the options meets the condition on them *)
Theorem C09_options : forall bad a a', 0 <= aMin a -> initArgs bad a = Ok (Good a') -> 0 <= aMin a' <= aMax a' /\ 1 <= aMax a'.
Proof.
  intros bad a a' H E. unfold initArgs in E. destruct bad; [discriminate|].
  rewrite Z.gtb_ltb in E. destruct (Z.ltb_spec (aMax a) 1); destruct (Z.ltb_spec (if aMax a <? 1 then 4096 else aMax a) (aMin a)) as [L|L];
    try discriminate; destruct (Z.ltb_spec (aMax a) 1); try lia.
  all: try (destruct (Z.ltb_spec 4096 (aMin a)); [discriminate|]; injection E as <-; cbn; lia).
  all: try (destruct (Z.ltb_spec (aMax a) (aMin a)); [discriminate|]; injection E as <-; cbn; lia).
Qed.
Print Assumptions C09_options.

(* ^([a-c]|xy?)+[^\n]{2,3}$, with its generator and a text it produces *)
Example C09_case :
  let r := EConcat [EBeginText; EPlus (ECapture (EAlt [EClass [(97, 99)]; EConcat [ELiteral [120]; EQuest (ELiteral [121])]]));
                    ERepeat 2 3 (EClass [(0, 9); (11, 1114111)]); EEndText] in
  let a := mkArgs 0 10 false in
  simplifies goSimplify /\ (forall (k : nat) n, 1 <= n -> 0 <= (fun (_ : nat) n => n - 1) k n < n) /\
  anchorsAtEnds true true r = true /\ cleanText r /\ drawable (aAscii a) r /\ (0 <= aMin a <= aMax a /\ 1 <= aMax a) /\
  exists g, newGen goSimplify a 20 r = Ok (Good g) /\
    rgenerate a (fun _ n => n - 1) g 0 =
      Ok ([120; 121; 120; 121; 120; 121; 120; 121; 120; 121; 120; 121; 120; 121; 120; 121; 120; 121; 120; 121; 126; 126; 126], 28%nat).
Proof.
  cbv zeta. split; [exact goSimplify_ok|]. split; [intros; lia|]. split; [reflexivity|].
  assert (C1 : cleanClass [(97, 99)]).
  { split; [cbn; lia|]. left. intros c (lo & hi & [X|[]] & B). injection X as <- <-. lia. }
  assert (C2 : cleanClass [(0, 9); (11, 1114111)]).
  { split; [cbn; lia|]. right. split; vm_compute; [reflexivity|discriminate]. }
  assert (N1 : [(97, 99)] <> [] /\ normal 0 [(97, 99)] /\ ~ In (0, 0) [(97, 99)]).
  { split; [discriminate|]. split; [cbn; lia|]. intros [X|[]]. discriminate. }
  assert (N2 : [(0, 9); (11, 1114111)] <> [] /\ normal 0 [(0, 9); (11, 1114111)] /\ ~ In (0, 0) [(0, 9); (11, 1114111)]).
  { split; [discriminate|]. split; [cbn; lia|]. intros [X|[X|[]]]; discriminate. }
  assert (B1 : 0 <= 2) by lia. assert (B2 : 3 = -1 \/ 2 <= 3) by lia.
  assert (NE : [EClass [(97, 99)]; EConcat [ELiteral [120]; EQuest (ELiteral [121])]] <> []) by discriminate.
  assert (L : forall c, scalar c = true -> Forall (fun c => scalar c = true) [c]) by (intros; constructor; [assumption|constructor]).
  split; [|split; [|split; [cbn; lia|]]].
  - exact (conj I (conj (conj C1 (conj (conj (L 120 eq_refl) (conj (L 121 eq_refl) I)) I)) (conj (conj B1 (conj B2 C2)) (conj I I)))).
  - exact (conj I (conj (conj NE (conj N1 (conj (conj I (conj I I)) I))) (conj (conj B1 (conj B2 N2)) (conj I I)))).
  - eexists. split; [vm_compute; reflexivity|vm_compute; reflexivity].
Qed.

(* \x{D800}: the text is U+FFFD, which does not match *)
Theorem C09_surrogate_refuted : exists r g, anchorsAtEnds true true r = true /\
  (forall a, newGen goSimplify a 1 r = Ok (Good g)) /\
  forall a rd k, exists w, rgenerate a rd g k = Ok (w, k) /\ ~ fullMatch r w.
Proof.
  exists (ELiteral [55296]), (RText [55296]). split; [reflexivity|]. split; [reflexivity|].
  intros a rd k. eexists. split; [reflexivity|]. intro M. inversion M.
Qed.
Print Assumptions C09_surrogate_refuted.

(* ".", under the options the parser uses by default (not limited to ASCII): no generator but a panic *)
Theorem C09_dot_refuted : forall mn mx, exists w, newGen goSimplify (mkArgs mn mx false) 1 EAnyNotNL = Panic w.
Proof. intros. eexists. reflexivity. Qed.
Print Assumptions C09_dot_refuted.

(* a^b: an anchor inside is ignored *)
Theorem C09_interior_anchor_refuted : exists r g, (forall a, newGen goSimplify a 2 r = Ok (Good g)) /\
  forall a rd k, exists w, rgenerate a rd g k = Ok (w, k) /\ ~ fullMatch r w.
Proof.
  exists (EConcat [ELiteral [97]; EBeginText; ELiteral [98]]), (RCat [RText [97]; RText []; RText [98]]). split; [reflexivity|].
  intros a rd k. exists [97; 98]. split; [reflexivity|]. intro M. apply concat_row, row_cons in M. destruct M as (u & v & E & M & R).
  inversion M; subst. apply row_cons in R. destruct R as (u & v' & E' & M' & R). inversion M'.
Qed.
Print Assumptions C09_interior_anchor_refuted.

(* ------------------------------------------------------------------ C10 *)

(* For every pattern of characters, ".", escapes, classes, anchors, groups, alternatives and repetition:
   the rewritten text is the text of the pattern with every "." made \w, and its language is included in
   the language of the original.  Missing from the full statement: classes with "." or "\" in them and the
   escape \\ (the cases refuted below). *)
Theorem C10_narrows_partial : forall escape class, escape "w"%char = EClass wordClass -> forall p, ordinary p ->
  exists q, suppressed (textOf p) = textOf q /\
  (forall w, fullMatch (meaning escape class q) w -> fullMatch (meaning escape class p) w) /\
  (~ In "."%char (list_ascii_of_string (textOf p)) -> q = p).
Proof.
  intros escape class Hw p O. exists (dotsToWords p). split; [exact (suppressed_text p O)|]. split; [|exact (no_dots p)].
  intros w M. exact (dots_narrow escape class Hw p _ _ _ M).
Qed.
Print Assumptions C10_narrows_partial.

(* ^a\.(.|[x-z]+)*$ *)
Example C10_case : let p := PSeq PBegin (PSeq (PChar "a") (PSeq (PEsc ".") (PSeq (PStar (PGroup (PAlt PDot (PPlus (PClass "x" "-z"))))) PEnd))) in
  ordinary p /\ textOf p = "^a\.((?:.|[x-z]+))*$" /\ suppressed (textOf p) = "^a\.((?:\w|[x-z]+))*$".
Proof.
  cbv zeta. split; [|split; vm_compute; reflexivity].
  cbn. repeat split; try discriminate. repeat constructor; discriminate.
Qed.

(* [.] becomes [\w] *)
Theorem C10_class_refuted : forall parse : string -> option regex,
  parse "[.]" = Some (EClass [(46, 46)]) -> parse "[\w]" = Some (EClass wordClass) ->
  ~ (forall p r r', parse p = Some r -> parse (suppressed p) = Some r' -> forall w, fullMatch r' w -> fullMatch r w).
Proof.
  intros parse H1 H2 H. specialize (H "[.]" _ _ H1 H2 [97]).
  assert (M : fullMatch (EClass wordClass) [97]) by (constructor; exists 97, 122; cbn; split; [tauto|lia]).
  apply H in M. inversion M as [| |l c pre post I| | | | | | | | | | | | | | |]; subst. destruct I as (lo & hi & [X|[]] & B).
  injection X as <- <-. lia.
Qed.
Print Assumptions C10_class_refuted.

(* [^.] becomes [^\w], so that "." itself is generated for it *)
Theorem C10_negated_class_refuted : forall parse : string -> option regex,
  parse "[^.]" = Some (EClass [(0, 9); (11, 45); (47, 1114111)]) ->
  parse "[^\w]" = Some (EClass [(0, 9); (11, 47); (58, 64); (91, 94); (96, 96); (123, 1114111)]) ->
  exists r r', parse "[^.]" = Some r /\ parse (suppressed "[^.]") = Some r' /\ fullMatch r' [46] /\ ~ fullMatch r [46].
Proof.
  intros parse H1 H2. do 2 eexists. split; [exact H1|]. split; [exact H2|]. split.
  - constructor. exists 11, 47. cbn. split; [tauto|lia].
  - intro M. inversion M as [| |l c pre post I| | | | | | | | | | | | | | |]; subst. destruct I as (lo & hi & I & B).
    cbn in I. destruct I as [X|[X|[X|[]]]]; injection X as <- <-; lia.
Qed.
Print Assumptions C10_negated_class_refuted.

(* after \\ the "." is not replaced, and generation panics unless it is limited to ASCII (C09_dot_refuted) *)
Theorem C10_backslash_refuted : suppressed "\\." = "\\.".
Proof. vm_compute. reflexivity. Qed.
Print Assumptions C10_backslash_refuted.
