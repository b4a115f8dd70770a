(* C47: what is generated is valid, for documents with if or oneOf at the root. *)
From Coq Require Import ZArith Reals List String Ascii Bool Lia Lra.
From Flocq Require Import Core BinarySingleNaN.
From Verif Require Import Base Float64 Json Schema Util Options Number Gen GenInv PState RefPath Merge Parse PFacts ParseKeep.
From Verif Require Import MergeFacts MergeProps MergeValid SpecMerge SpecNumber SpecSchema SpecRun SpecFragment ValueProps Terminate ParseEnds Sound Names NamesTidy Conditional NumberRefute ValueDemo.
From Verif Require Import P_Sound.
Import ListNotations.
Open Scope string_scope.
Open Scope Z_scope.

(* Every value generated for a document with if at the root (SpecFragment.v, conditional) that was parsed
   without errors is valid, unless a generator gave up. *)
Theorem C47_condition_partial : forall PE GE matches formatted refers fuel parsing rootId d n g s' st v st',
  smallOptions (eOpts GE) -> conditional PE GE matches formatted refers true d n -> plainName parsing -> Z.of_nat d + 1 <= pxMaxDepth PE ->
  parseDoc PE fuel parsing rootId n = Ok (Good g, s') -> pErrs s' = [] ->
  yields GE g st v st' -> ~ emitted EvCutoff st st' -> ~ emitted EvConstraintFail st st' -> ~ emitted EvUnchecked st st' ->
  ~ emitted EvUniqueFail st st' -> ~ emitted EvIfFail st st' ->
  valid matches formatted refers n v.
Proof.
  intros PE GE mt fm rf fuel parsing rootId d n g s' st v st' HO HC HP HD H HE HY N1 N2 N3 N4 N5.
  destruct HC as (R & A & AO & OO & N & MN & MI & C & DF & HS & (c & HI & RA) & HB).
  destruct (doc_open PE GE mt fm rf true fuel parsing rootId n g s' C DF H HE) as (f & s1 & s2 & X & EX & DX & DD & NAMES).
  eapply (if_sound PE GE mt fm rf HO true (fun a b => ~ emitted EvCutoff a b /\ ~ emitted EvConstraintFail a b /\ ~ emitted EvUnchecked a b /\ ~ emitted EvUniqueFail a b /\ ~ emitted EvIfFail a b))
    with (d := d) (c := c) (f := f) (s := s1) (g := g) (s' := s2); eauto; try (rewrite DX; lia).
  - intros a b X1. apply X1.
  - intros a b a' b' (M1 & M2 & M3 & M4 & M5) A1 B1. split; [|split; [|split; [|split]]]; intros E1; [apply M1|apply M2|apply M3|apply M4|apply M5]; eapply emitted_widen; eauto.
  - intros _ a b X1. split; apply X1.
  - intros _ a b X1. apply X1.
  - intros a b X1. apply X1.
  - intros a b X1. apply X1.
  - intros p. destruct (assoc (p ++ "_if_0") (pRes s1)) eqn:E1; [|reflexivity]. exfalso.
    destruct (NAMES (p ++ "_if_0")) as [Y|Y]; [rewrite E1; discriminate| |].
    + destruct (HP p 0) as [Z _]. apply Z. symmetry. exact Y.
    + change "_if_0" with ("_if_" ++ "0") in Y. rewrite <- app_assoc_s in Y. revert Y. apply ends_digit; [discriminate|reflexivity].
Qed.
Print Assumptions C47_condition_partial.

(* The same for a document with oneOf of several branches at the root (SpecFragment.v, branching): exactly one
   branch accepts the value. *)
Theorem C47_oneOf_partial : forall PE GE matches formatted refers fuel parsing rootId d n g s' st v st',
  smallOptions (eOpts GE) -> branching PE GE matches formatted refers true d n -> plainName parsing -> Z.of_nat d + 1 <= pxMaxDepth PE ->
  parseDoc PE fuel parsing rootId n = Ok (Good g, s') -> pErrs s' = [] ->
  yields GE g st v st' -> ~ emitted EvCutoff st st' -> ~ emitted EvConstraintFail st st' -> ~ emitted EvUnchecked st st' ->
  ~ emitted EvUniqueFail st st' -> ~ emitted EvOneOfFail st st' ->
  valid matches formatted refers n v.
Proof.
  intros PE GE mt fm rf fuel parsing rootId d n g s' st v st' HO HC HP HD H HE HY N1 N2 N3 N4 N5.
  destruct HC as (R & A & AO & C & CM & DF & l & HL & LEN & HB).
  destruct (doc_open PE GE mt fm rf true fuel parsing rootId n g s' C DF H HE) as (f & s1 & s2 & X & EX & DX & DD & NAMES).
  eapply (oneOf_sound PE GE mt fm rf HO true (fun a b => ~ emitted EvCutoff a b /\ ~ emitted EvConstraintFail a b /\ ~ emitted EvUnchecked a b /\ ~ emitted EvUniqueFail a b /\ ~ emitted EvOneOfFail a b))
    with (d := d) (l := l) (f := f) (s := s1) (g := g) (s' := s2); eauto; try (rewrite DX; lia).
  - intros a b X1. apply X1.
  - intros a b a' b' (M1 & M2 & M3 & M4 & M5) A1 B1. split; [|split; [|split; [|split]]]; intros E1; [apply M1|apply M2|apply M3|apply M4|apply M5]; eapply emitted_widen; eauto.
  - intros _ a b X1. split; apply X1.
  - intros _ a b X1. apply X1.
  - intros a b X1. apply X1.
  - intros a b X1. apply X1.
  - intros b base I B. exact (proj1 (HB b I) base B).
  - intros b m w I M. exact (proj2 (HB b I) m M w).
  - intros p i Hi. destruct (assoc (p ++ "_oneOf_" ++ itoa i) (pRes s1)) eqn:E1; [|reflexivity]. exfalso.
    destruct (NAMES (p ++ "_oneOf_" ++ itoa i)) as [Y|Y]; [rewrite E1; discriminate| |].
    + destruct (HP p i) as [_ Z]. apply Z. symmetry. exact Y.
    + rewrite <- app_assoc_s in Y. revert Y. apply ends_digit; apply itoa_digits; exact Hi.
Qed.
Print Assumptions C47_oneOf_partial.

(* a validator that knows one constant and the type names string and null *)
Definition knowing (n : schemaNode) (v : json) : bool :=
  match sConst n, v with
  | Some _, JStr s => String.eqb s "ab"
  | Some _, _ => false
  | None, JStr _ => match sType n with Some t => String.eqb (mtSingle t) "string" | None => true end
  | None, JNull => match sType n with Some t => String.eqb (mtSingle t) "null" | None => true end
  | None, _ => false
  end.
Definition checking (r g : Z) : env :=
  mkEnv (withDefaults zeroOptions) [] (fun _ => r) (fun _ => g)
    (fun _ => "ab") (fun _ _ => "x") (fun _ _ => Ok "r") knowing (fun _ _ => false) (fun _ _ => false).
Lemma demo_plain : plainName "file:///w/".
Proof.
  intros p i. split; intros E; assert (L : lastOf "0" "file:///w/" = "/"%char) by reflexivity; rewrite E in L.
  - rewrite lastOf_app in L by discriminate. discriminate L.
  - rewrite lastOf_app in L by discriminate. change ("_oneOf_" ++ itoa i) with ("_oneOf" ++ ("_" ++ itoa i)) in L. rewrite lastOf_app in L by discriminate.
    revert L. unfold itoa. destruct (Z.to_int i) as [u|u]; cbn [DecimalString.NilEmpty.string_of_int append lastOf];
    assert (G : forall u c, c <> "/"%char -> lastOf c (DecimalString.NilEmpty.string_of_uint u) <> "/"%char)
      by (induction u0; intros c N; cbn [DecimalString.NilEmpty.string_of_uint lastOf]; [exact N|..]; apply IHu0; discriminate);
    apply G; discriminate.
Qed.
(* {"type": "string", "if": {"const": "ab"}, "then": {"minLength": 2}, "else": {"maxLength": 5}} *)
Definition abNode : schemaNode := set_sConst (Some (JStr "ab")) emptyNode.
Definition ifNode : schemaNode :=
  set_sIf (Some abNode) (set_sThen (Some (set_sMinLength (Some 2) emptyNode)) (set_sElse (Some shortEnough) (typed "string" emptyNode))).
Lemma then_merged : forall m, mergesTo demoPE [typed "string" emptyNode; set_sMinLength (Some 2) emptyNode] m -> m = longEnough.
Proof.
  intros m (f & s & s' & H & _). destruct f as [|[|[|f]]]; vm_compute in H; try discriminate H; injection H as <- _; reflexivity.
Qed.
Lemma else_merged : forall m, mergesTo demoPE [typed "string" emptyNode; shortEnough] m -> m = set_sMaxLength (Some 5) (typed "string" emptyNode).
Proof.
  intros m (f & s & s' & H & _). destruct f as [|[|[|f]]]; vm_compute in H; try discriminate H; injection H as <- _; reflexivity.
Qed.
Lemma then_can : canMerge [typed "string" emptyNode; set_sMinLength (Some 2) emptyNode].
Proof. fits. Qed.
Lemma else_can : canMerge [typed "string" emptyNode; shortEnough].
Proof. fits. Qed.
Lemma ab_right : forall r g mt fm rf, rightAbout (checking r g) mt fm rf abNode.
Proof.
  intros r g mt fm rf v. cbn [eValid checking]. split.
  - intros H. assert (E : v = JStr "ab") by (destruct v; cbn in H; try discriminate H; apply String.eqb_eq in H; congruence). subst v.
    apply valid_eq. cbn. unfold okFlat, okType, okEnum, okConst, okString, okNumber, okArray, okObject, okRange, okBounds, okMultipleOf. cbn.
    (split; [|repeat split; intros ? X; discriminate X]); (split; [exact Logic.I|]). split; [intros l X; discriminate X|].
    split; [intros x X; injection X as <-; apply jeq_str|].
    repeat split; intros; try discriminate; match goal with H : numberValue _ _ |- _ => inversion H end.
  - intros V. apply valid_eq in V. destruct V as ((_ & _ & V & _) & _). specialize (V _ eq_refl).
    inversion V; subst; try (match goal with H : numberValue (JStr _) _ |- _ => destruct H end). reflexivity.
Qed.
Lemma of_type : forall mt fm rf t v, t <> "" -> (valid mt fm rf (typed t emptyNode) v <-> hasType t v).
Proof.
  intros mt fm rf t v NE. split.
  - intros V. apply valid_eq in V. destruct V as ((V & _) & _). exact (V NE).
  - intros V. apply valid_eq. cbn. unfold okFlat, okType, okEnum, okConst, okString, okNumber, okArray, okObject, okRange, okBounds, okMultipleOf. cbn.
    (split; [|repeat split; intros; try discriminate; exact Logic.I]); (split; [intros _; exact V|]).
    repeat split; intros; discriminate.
Qed.
Lemma type_string : forall v, hasType "string" v <-> exists s, v = JStr s.
Proof. intros v. unfold hasType. split; [|intros X; do 4 right; left; auto]. intros [[X _]|[[X _]|[[X _]|[[X _]|[[_ X]|[[X _]|[X _]]]]]]]; try discriminate X; exact X. Qed.
Lemma type_null : forall v, hasType "null" v <-> v = JNull.
Proof. intros v. unfold hasType. split; [|intros X; left; auto]. intros [[_ X]|[[X _]|[[X _]|[[X _]|[[X _]|[[X _]|[X _]]]]]]]; try discriminate X; exact X. Qed.
Lemma string_supported : forall GE mt fm rf n, sType n = Some (mkMT "string" None) -> plain n -> smallSizes n -> sPattern n = None -> sFormat n = None -> sMaxLength n <> Some 0 ->
  supported demoPE GE mt fm rf true 1 n.
Proof.
  intros GE mt fm rf n T P S N1 N2 N3. apply (one_type _ _ _ _ _ _ _ _ "string"); auto.
  split; [cbn; tauto|]. split; [intros _; unfold textual; rewrite N1, N2; exact N3|]. repeat (split; [intros X; discriminate X|]); intros X; discriminate X.
Qed.
Lemma if_fragment : forall mt fm rf, conditional demoPE (checking 7 3) mt fm rf true 1 ifNode.
Proof.
  intros mt fm rf. do 8 (split; [reflexivity|]). split; [intros k c [[]|[]]|].
  assert (W : withoutIf ifNode = typed "string" emptyNode) by reflexivity.
  split; [|split].
  - rewrite W. right. right. split; [apply small_by; vm_compute; reflexivity|]. split; [constructor; reflexivity|]. split.
    + intros t [<-|[]]. apply string_only; reflexivity.
    + intros x ts X. discriminate X.
  - exists abNode. split; [reflexivity|apply ab_right].
  - intros b Hb. rewrite W. destruct Hb as [X|X]; injection X as <-.
    + split; [exact then_can|]. intros m M. apply then_merged in M. subst m.
      apply string_supported; try reflexivity; [constructor; reflexivity|apply small_by; vm_compute; reflexivity|discriminate].
    + split; [exact else_can|]. intros m M. apply else_merged in M. subst m.
      apply string_supported; try reflexivity; [constructor; reflexivity|apply small_by; vm_compute; reflexivity|discriminate].
Qed.
Example C47_case_condition : conditional demoPE (checking 7 3) (fun _ _ => True) (fun _ _ => True) (fun _ _ => True) true 1 ifNode /\ plainName "file:///w/" /\
  exists fuel g s' st', parseDoc demoPE fuel "file:///w/" "file:///w/doc" ifNode = Ok (Good g, s') /\ pErrs s' = [] /\
    yields (checking 7 3) g start (JStr "ab") st' /\ forall e, ~ emitted e start st'.
Proof.
  split; [apply if_fragment|]. split; [exact demo_plain|].
  destruct (runDoc_ok 40 60 (checking 7 3) ifNode (JStr "ab") []) as (g & s' & st' & A & B & C & D); [vm_compute; reflexivity|].
  exists 40%nat, g, s', st'. split; [exact A|]. split; [exact B|]. split; [exact C|].
  intros e (l & X & I). rewrite D in X. symmetry in X. apply app_eq_nil in X. destruct X as [-> _]. destruct I.
Qed.

(* {"oneOf": [{"type": "string"}, {"type": "null"}]} *)
Definition eitherNode : schemaNode := set_sOneOf (Some [typed "string" emptyNode; typed "null" emptyNode]) emptyNode.
Lemma either_base : forall m, mergesTo demoPE [eitherNode] m -> m = eitherNode.
Proof.
  intros m (f & s & s' & H & _). destruct f as [|[|[|f]]]; vm_compute in H; try discriminate H; injection H as <- _; reflexivity.
Qed.
Lemma either_alone : forall t m, In t ["string"; "null"] -> mergesTo demoPE [typed t emptyNode] m -> m = typed t emptyNode.
Proof.
  intros t m T (f & s & s' & H & _). destruct T as [<-|[<-|[]]]; destruct f as [|[|[|f]]]; vm_compute in H; try discriminate H; injection H as <- _; reflexivity.
Qed.
Lemma either_merged : forall t m, In t ["string"; "null"] -> mergesTo demoPE [emptyNode; typed t emptyNode] m -> m = typed t emptyNode.
Proof.
  intros t m T (f & s & s' & H & _). destruct T as [<-|[<-|[]]]; destruct f as [|[|[|f]]]; vm_compute in H; try discriminate H; injection H as <- _; reflexivity.
Qed.
Lemma either_can : canMerge [eitherNode].
Proof. fits. Qed.
Lemma either_can' : forall t, In t ["string"; "null"] -> canMerge [emptyNode; typed t emptyNode].
Proof. intros t [<-|[<-|[]]]; fits. Qed.
Lemma either_fragment : forall r g mt fm rf, branching demoPE (checking r g) mt fm rf true 1 eitherNode.
Proof.
  intros r g mt fm rf. do 4 (split; [reflexivity|]). split; [exact either_can|]. split; [intros k c [[]|[]]|].
  eexists. split; [reflexivity|]. split; [cbn; lia|]. intros b Hb.
  assert (T : exists t, In t ["string"; "null"] /\ b = typed t emptyNode) by (destruct Hb as [<-|[<-|[]]]; eexists; (split; [|reflexivity]); cbn; auto).
  destruct T as (t & T & ->). split.
  - intros base M. apply either_base in M. subst base. change (set_sOneOf None eitherNode) with emptyNode. split; [apply either_can'; exact T|].
    intros m M. apply (either_merged t m T) in M. subst m. apply (one_type _ _ _ _ _ _ _ _ t); [reflexivity|constructor; reflexivity|destruct T as [<-|[<-|[]]]; apply small_by; vm_compute; reflexivity|].
    destruct T as [<-|[<-|[]]]; [apply string_only; reflexivity|apply null_only].
  - intros m M v. apply (either_alone t m T) in M. subst m. rewrite of_type by (destruct T as [<-|[<-|[]]]; discriminate). cbn [eValid checking].
    destruct T as [<-|[<-|[]]]; [rewrite (type_string v)|rewrite (type_null v)]; destruct v; cbn; split; intros X; try discriminate X; try (destruct X as (x & X); discriminate X); try reflexivity. eexists; reflexivity.
Qed.
Example C47_case_oneOf : branching demoPE (checking 7 3) (fun _ _ => True) (fun _ _ => True) (fun _ _ => True) true 1 eitherNode /\
  exists fuel g s' st', parseDoc demoPE fuel "file:///w/" "file:///w/doc" eitherNode = Ok (Good g, s') /\ pErrs s' = [] /\
    yields (checking 7 3) g start JNull st' /\ forall e, ~ emitted e start st'.
Proof.
  split; [apply either_fragment|].
  destruct (runDoc_ok 40 60 (checking 7 3) eitherNode JNull []) as (g & s' & st' & A & B & C & D); [vm_compute; reflexivity|].
  exists 40%nat, g, s', st'. split; [exact A|]. split; [exact B|]. split; [exact C|].
  intros e (l & X & I). rewrite D in X. symmetry in X. apply app_eq_nil in X. destruct X as [-> _]. destruct I.
Qed.
