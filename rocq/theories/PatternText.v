(* regex.go: the rewriting of a pattern that suppresses random bytes. *)
From Coq Require Import ZArith List String Ascii Bool Lia.
From Verif Require Import Base Regen SpecRegex.
Import ListNotations.
Open Scope string_scope.
Open Scope Z_scope.

(* strings.ReplaceAll (standard library) for a non-empty old text: left to right, without overlap; skip is
   what is left of the occurrence being replaced *)
Fixpoint startsWith (p s : string) : bool :=
  match p, s with
  | EmptyString, _ => true
  | String a p', String b s' => Ascii.eqb a b && startsWith p' s'
  | _, EmptyString => false
  end.
Fixpoint replaceFrom (old new : string) (skip : nat) (s : string) : string :=
  match s with
  | EmptyString => EmptyString
  | String c r =>
      match skip with
      | S k => replaceFrom old new k r
      | O => if startsWith old s then new ++ replaceFrom old new (String.length old - 1) r
             else String c (replaceFrom old new O r)
      end
  end.
Definition replaceAll (old new s : string) : string := replaceFrom old new O s.

(* regex.go 9 fullStringLiteral *)
Definition sentinel : string := "[~{FULL_STOP_LITERAL}~]".

(* regex.go 11-19 newRegexGenerator: the pattern handed to regen.NewGenerator *)
Definition suppressed (pattern : string) : string :=
  replaceAll sentinel "\." (replaceAll "." "\w" (replaceAll "\." sentinel pattern)).
Definition regenPattern (suppressRandomBytes : bool) (pattern : string) : string :=
  if suppressRandomBytes then suppressed pattern else pattern.

(* ------------------------------------------------------------------ patterns and their text *)

(* Patterns as people write them: characters, ".", escapes such as \d or \., bracket classes, anchors,
   groups, alternatives and repetition. *)
Inductive pat : Type :=
  | PNothing
  | PChar (c : ascii)
  | PDot
  | PEsc (c : ascii)
  | PClass (c : ascii) (body : string)
  | PBegin | PEnd
  | PGroup (p : pat)
  | PStar (p : pat) | PPlus (p : pat) | PQuest (p : pat)
  | PSeq (p q : pat) | PAlt (p q : pat).

Definition atom (p : pat) : bool :=
  match p with PChar _ | PDot | PEsc _ | PClass _ _ | PGroup _ => true | _ => false end.
Definition bracketed (p : pat) (s : string) : string := if atom p then s else "(?:" ++ s ++ ")".

Fixpoint textOf (p : pat) : string :=
  match p with
  | PNothing => ""
  | PChar c => String c ""
  | PDot => "."
  | PEsc c => String "\" (String c "")
  | PClass c body => "[" ++ String c body ++ "]"
  | PBegin => "^"
  | PEnd => "$"
  | PGroup p => "(" ++ textOf p ++ ")"
  | PStar p => bracketed p (textOf p) ++ "*"
  | PPlus p => bracketed p (textOf p) ++ "+"
  | PQuest p => bracketed p (textOf p) ++ "?"
  | PSeq p q => textOf p ++ textOf q
  | PAlt p q => "(?:" ++ textOf p ++ "|" ++ textOf q ++ ")"
  end.

Definition in_text (c : ascii) (s : string) : Prop := In c (list_ascii_of_string s).

(* characters and escapes without a second meaning: no "." and no "\" but as tokens, and "[" only opens a
   class that does not start with "~" *)
Fixpoint ordinary (p : pat) : Prop :=
  match p with
  | PChar c => c <> "."%char /\ c <> "\"%char /\ c <> "["%char
  | PEsc c => c <> "\"%char /\ c <> "["%char
  | PClass c body => c <> "~"%char /\ Forall (fun d => d <> "."%char /\ d <> "\"%char /\ d <> "["%char) (c :: list_ascii_of_string body)
  | PGroup p | PStar p | PPlus p | PQuest p => ordinary p
  | PSeq p q | PAlt p q => ordinary p /\ ordinary q
  | _ => True
  end.

Section Meaning.
(* what an escape such as \d and a bracket class stand for *)
Variable escape : ascii -> regex.
Variable class : string -> regex.

Fixpoint meaning (p : pat) : regex :=
  match p with
  | PNothing => EEmpty
  | PChar c => ELiteral [Z.of_nat (nat_of_ascii c)]
  | PDot => EAnyNotNL
  | PEsc c => escape c
  | PClass c body => class (String c body)
  | PBegin => EBeginText
  | PEnd => EEndText
  | PGroup p => ECapture (meaning p)
  | PStar p => EStar (meaning p)
  | PPlus p => EPlus (meaning p)
  | PQuest p => EQuest (meaning p)
  | PSeq p q => EConcat [meaning p; meaning q]
  | PAlt p q => EAlt [meaning p; meaning q]
  end.
End Meaning.

(* \w *)
Definition wordClass : list (Z * Z) := [(48, 57); (65, 90); (95, 95); (97, 122)].

(* every "." of a pattern made \w *)
Fixpoint dotsToWords (p : pat) : pat :=
  match p with
  | PDot => PEsc "w"
  | PGroup p => PGroup (dotsToWords p)
  | PStar p => PStar (dotsToWords p)
  | PPlus p => PPlus (dotsToWords p)
  | PQuest p => PQuest (dotsToWords p)
  | PSeq p q => PSeq (dotsToWords p) (dotsToWords q)
  | PAlt p q => PAlt (dotsToWords p) (dotsToWords q)
  | _ => p
  end.

(* ------------------------------------------------------------------ the rewriting, token by token *)

Lemma replace_other : forall c old new d r, d <> c -> replaceAll (String c old) new (String d r) = String d (replaceAll (String c old) new r).
Proof. intros c old new d r H. unfold replaceAll. cbn [replaceFrom startsWith].
  replace (Ascii.eqb c d) with false by (symmetry; apply Ascii.eqb_neq; congruence). reflexivity. Qed.

Record passes (t t1 t2 t3 : string) : Prop := mkPasses {
  p1 : forall r, replaceAll "\." sentinel (t ++ r) = t1 ++ replaceAll "\." sentinel r;
  p2 : forall r, replaceAll "." "\w" (t1 ++ r) = t2 ++ replaceAll "." "\w" r;
  p3 : forall r, replaceAll sentinel "\." (t2 ++ r) = t3 ++ replaceAll sentinel "\." r }.

Lemma passes_app : forall a a1 a2 a3 b b1 b2 b3, passes a a1 a2 a3 -> passes b b1 b2 b3 ->
  passes (a ++ b) (a1 ++ b1) (a2 ++ b2) (a3 ++ b3).
Proof.
  intros a a1 a2 a3 b b1 b2 b3 [A1 A2 A3] [B1 B2 B3].
  constructor; intro r; rewrite <- !append_assoc; [rewrite A1, B1|rewrite A2, B2|rewrite A3, B3]; reflexivity.
Qed.

Lemma passes_empty : passes "" "" "" "".
Proof. constructor; reflexivity. Qed.

Lemma passes_char : forall c, c <> "."%char -> c <> "\"%char -> c <> "["%char ->
  passes (String c "") (String c "") (String c "") (String c "").
Proof.
  intros c H1 H2 H3. constructor; intro r; cbn [append].
  - apply replace_other. assumption.
  - apply replace_other. assumption.
  - apply replace_other. assumption.
Qed.

Lemma passes_text : forall s, Forall (fun d => d <> "."%char /\ d <> "\"%char /\ d <> "["%char) (list_ascii_of_string s) -> passes s s s s.
Proof.
  induction s as [|c s IH]; intro F; [apply passes_empty|]. inversion F; subst.
  change (String c s) with (String c "" ++ s). apply passes_app; [apply passes_char; tauto|]. apply IH. assumption.
Qed.

Lemma passes_dot : passes "." "." "\w" "\w".
Proof. constructor; intro r; reflexivity. Qed.

Lemma passes_escaped_dot : passes "\." sentinel sentinel "\.".
Proof. constructor; intro r; reflexivity. Qed.

Lemma passes_escape : forall c, c <> "."%char -> c <> "\"%char -> c <> "["%char ->
  passes (String "\" (String c "")) (String "\" (String c "")) (String "\" (String c "")) (String "\" (String c "")).
Proof.
  intros c H1 H2 H3. constructor; intro r; cbn [append].
  - assert (E : startsWith "\." (String "\" (String c r)) = false).
    { cbn [startsWith]. replace (Ascii.eqb "." c) with false by (symmetry; apply Ascii.eqb_neq; congruence). reflexivity. }
    transitivity (String "\" (replaceAll "\." sentinel (String c r))).
    + unfold replaceAll at 1. cbn [replaceFrom]. rewrite E. reflexivity.
    + rewrite replace_other by assumption. reflexivity.
  - rewrite replace_other by discriminate. rewrite replace_other by assumption. reflexivity.
  - unfold sentinel. rewrite replace_other by discriminate. rewrite replace_other by assumption. reflexivity.
Qed.

Lemma passes_class : forall c body, c <> "~"%char -> Forall (fun d => d <> "."%char /\ d <> "\"%char /\ d <> "["%char) (c :: list_ascii_of_string body) ->
  passes ("[" ++ String c body ++ "]") ("[" ++ String c body ++ "]") ("[" ++ String c body ++ "]") ("[" ++ String c body ++ "]").
Proof.
  intros c body H F.
  assert (P : passes (String c body ++ "]") (String c body ++ "]") (String c body ++ "]") (String c body ++ "]")).
  { apply passes_app; [apply passes_text; exact F|apply passes_char; discriminate]. }
  destruct P as [P1 P2 P3]. constructor; intro r.
  - change (("[" ++ String c body ++ "]") ++ r) with (String "[" ((String c body ++ "]") ++ r)).
    rewrite replace_other by discriminate. rewrite P1. reflexivity.
  - change (("[" ++ String c body ++ "]") ++ r) with (String "[" ((String c body ++ "]") ++ r)).
    rewrite replace_other by discriminate. rewrite P2. reflexivity.
  - change (("[" ++ String c body ++ "]") ++ r) with (String "[" ((String c body ++ "]") ++ r)).
    assert (E : startsWith sentinel (String "[" ((String c body ++ "]") ++ r)) = false).
    { unfold sentinel. cbn [startsWith append]. replace (Ascii.eqb "~" c) with false by (symmetry; apply Ascii.eqb_neq; congruence). reflexivity. }
    unfold replaceAll at 1. cbn [replaceFrom]. rewrite E. fold (replaceAll sentinel "\." ((String c body ++ "]") ++ r)).
    rewrite P3. reflexivity.
Qed.

Definition rewritten (p : pat) : Prop := exists t1 t2, passes (textOf p) t1 t2 (textOf (dotsToWords p)).

Lemma atom_dots : forall p, atom (dotsToWords p) = atom p.
Proof. intros []; reflexivity. Qed.

Lemma lit_char : forall c, c <> "."%char -> c <> "\"%char -> c <> "["%char -> exists t1 t2, passes (String c "") t1 t2 (String c "").
Proof. intros. do 2 eexists. apply passes_char; assumption. Qed.

Lemma rewritten_app : forall a a3 b b3, (exists t1 t2, passes a t1 t2 a3) -> (exists t1 t2, passes b t1 t2 b3) ->
  exists t1 t2, passes (a ++ b) t1 t2 (a3 ++ b3).
Proof. intros a a3 b b3 (x & y & P) (z & w & Q). do 2 eexists. apply passes_app; eassumption. Qed.

Lemma rewritten_plain : forall s, Forall (fun d => d <> "."%char /\ d <> "\"%char /\ d <> "["%char) (list_ascii_of_string s) -> exists t1 t2, passes s t1 t2 s.
Proof. intros s F. exists s, s. apply passes_text. exact F. Qed.

Ltac plain := apply rewritten_plain; repeat (constructor; [repeat split; discriminate|]); constructor.

Lemma rewritten_bracketed : forall p, rewritten p -> exists t1 t2, passes (bracketed p (textOf p)) t1 t2 (bracketed (dotsToWords p) (textOf (dotsToWords p))).
Proof.
  intros p R. unfold bracketed. rewrite atom_dots. destruct (atom p); [exact R|].
  apply rewritten_app; [plain|]. apply rewritten_app; [exact R|plain].
Qed.

Lemma ordinary_rewritten : forall p, ordinary p -> rewritten p.
Proof.
  induction p as [|c| |c|c body| | |p IH|p IH|p IH|p IH|p IHp q IHq|p IHp q IHq]; intro O; unfold rewritten; cbn [textOf dotsToWords].
  - do 2 eexists. apply passes_empty.
  - cbn in O. apply lit_char; tauto.
  - do 2 eexists. apply passes_dot.
  - cbn in O. destruct (ascii_dec c ".") as [->|N].
    + do 2 eexists. apply passes_escaped_dot.
    + do 2 eexists. apply passes_escape; tauto.
  - cbn [ordinary] in O. destruct O as [O1 O2]. do 2 eexists. apply passes_class; assumption.
  - plain.
  - plain.
  - apply rewritten_app; [plain|]. apply rewritten_app; [exact (IH O)|plain].
  - apply rewritten_app; [apply rewritten_bracketed, IH, O|plain].
  - apply rewritten_app; [apply rewritten_bracketed, IH, O|plain].
  - apply rewritten_app; [apply rewritten_bracketed, IH, O|plain].
  - destruct O as [O1 O2]. apply rewritten_app; [exact (IHp O1)|exact (IHq O2)].
  - destruct O as [O1 O2]. apply rewritten_app; [plain|]. apply rewritten_app; [exact (IHp O1)|].
    apply rewritten_app; [plain|]. apply rewritten_app; [exact (IHq O2)|plain].
Qed.

Lemma append_empty_r : forall s, s ++ "" = s.
Proof. induction s; cbn; [|rewrite IHs]; reflexivity. Qed.

Lemma suppressed_text : forall p, ordinary p -> suppressed (textOf p) = textOf (dotsToWords p).
Proof.
  intros p O. destruct (ordinary_rewritten p O) as (t1 & t2 & [P1 P2 P3]). unfold suppressed.
  rewrite <- (append_empty_r (textOf p)), P1, P2, P3. apply append_empty_r.
Qed.

Section Narrow.
Variable escape : ascii -> regex.
Variable class : string -> regex.
Hypothesis Hw : escape "w"%char = EClass wordClass.

Lemma row_narrow : forall l l', Forall2 (fun s r => forall pre mid post, matches s pre mid post -> matches r pre mid post) l l' ->
  forall pre mid post, inRow l pre mid post -> inRow l' pre mid post.
Proof. intros l l' F. induction F as [|s r l l' H F IH]; intros pre mid post R; inversion R; subst; constructor; auto. Qed.
Lemma repeat_narrow : forall A (P : A -> A -> Prop) a b n, P a b -> Forall2 P (repeat a n) (repeat b n).
Proof. induction n; cbn; constructor; auto. Qed.

Lemma dots_narrow : forall p pre mid post, matches (meaning escape class (dotsToWords p)) pre mid post -> matches (meaning escape class p) pre mid post.
Proof.
  induction p as [|c| |c|c body| | |p IH|p IH|p IH|p IH|p IHp q IHq|p IHp q IHq]; intros pre mid post M; cbn [meaning dotsToWords] in *; try exact M.
  - rewrite Hw in M. inversion M as [| |l c pre' post' I| | | | | | | | | | | | | | |]; subst. constructor.
    destruct I as (lo & hi & I & B). unfold newline. cbn in I. destruct I as [I|[I|[I|[I|[]]]]]; injection I as <- <-; lia.
  - inversion M; subst. constructor. auto.
  - inversion M as [| | | | | | | | | | | |r n p0 m0 q0 R| | | | |]; subst. econstructor. eapply row_narrow; [|exact R]. apply repeat_narrow. exact IH.
  - inversion M as [| | | | | | | | | | | | |r n p0 m0 q0 N R| | | |]; subst. econstructor; [exact N|]. eapply row_narrow; [|exact R]. apply repeat_narrow. exact IH.
  - inversion M as [| | | | | | | | | | | | | |r n p0 m0 q0 N R| | |]; subst. econstructor; [exact N|]. eapply row_narrow; [|exact R]. apply repeat_narrow. exact IH.
  - inversion M as [| | | | | | | | | | | | | | | |l p0 m0 q0 R|]; subst. constructor. eapply row_narrow; [|exact R]. repeat constructor; auto.
  - inversion M as [| | | | | | | | | | | | | | | | |l r p0 m0 q0 I R]; subst. destruct I as [<-|[<-|[]]].
    + econstructor; [left; reflexivity|auto].
    + econstructor; [right; left; reflexivity|auto].
Qed.
End Narrow.

Lemma no_dots : forall p, ~ In "."%char (list_ascii_of_string (textOf p)) -> dotsToWords p = p.
Proof.
  assert (IA : forall c a b, In c (list_ascii_of_string (a ++ b)) <-> In c (list_ascii_of_string a) \/ In c (list_ascii_of_string b)).
  { intros c a b. induction a as [|d a IH]; cbn; [tauto|]. rewrite IH. tauto. }
  assert (IB : forall c p s, In c (list_ascii_of_string s) -> In c (list_ascii_of_string (bracketed p s))).
  { intros c p s H. unfold bracketed. destruct (atom p); [exact H|]. rewrite !IA. tauto. }
  induction p as [|c| |c|c body| | |p IH|p IH|p IH|p IH|p IHp q IHq|p IHp q IHq]; intro H; cbn [dotsToWords textOf] in *; try reflexivity.
  - exfalso. apply H. left. reflexivity.
  - rewrite IH; [reflexivity|]. intro X. apply H. rewrite !IA. tauto.
  - rewrite IH; [reflexivity|]. intro X. apply H. rewrite !IA. auto.
  - rewrite IH; [reflexivity|]. intro X. apply H. rewrite !IA. auto.
  - rewrite IH; [reflexivity|]. intro X. apply H. rewrite !IA. auto.
  - rewrite IHp, IHq; [reflexivity| |]; intro X; apply H; rewrite !IA; tauto.
  - rewrite IHp, IHq; [reflexivity| |]; intro X; apply H; rewrite !IA; tauto.
Qed.
