(* Proofs behind P_Gen.v: termination, references, cutoff, independence of calls, options. *)
From Coq Require Import ZArith List String Bool Lia.
From Flocq Require Import Core BinarySingleNaN.
From Verif Require Import Base Float64 Json Schema Util Rand Options Number Gen GenFacts GenInv GenRel GenValues.
Import ListNotations.
Open Scope string_scope.
Open Scope Z_scope.

(* what is assumed of the text library and of the regex generator: a sentence is never empty, the
   regex generator returns *)
Definition sensibleText (E : env) : Prop :=
  (forall d, eSentence E d <> "") /\ (forall p d, eRegen E p d <> Timeout).

Lemma root_terminates : forall E o g, sensibleText E ->
  exists n, forall pos glob, exists r, r <> Timeout /\
    forall fuel, (n <= fuel)%nat -> rootGenerate E o fuel g pos glob = r.
Proof.
  intros E o g [H1 H2]. exists (enough (withOptions o E) g []). intros pos glob.
  exists (rootGenerate E o (enough (withOptions o E) g []) g pos glob).
  assert (T : rootGenerate E o (enough (withOptions o E) g []) g pos glob <> Timeout).
  { unfold rootGenerate. apply generate_terminates; auto. }
  split; auto. intros fuel Hf. unfold rootGenerate in *. apply generate_fuel; auto.
Qed.

(* ---- references *)
Lemma root_enters : forall E o fuel g pos glob v s key open,
  rootGenerate E o fuel g pos glob = Ok (v, s) -> In (EvEnter key open) (gLog s) ->
  Z.of_nat (List.length (key :: open)) <= oMaximumReferenceDepth (withDefaults o) + 1 /\
  (oBypassCyclicReferenceCheck o = false -> ~ In key open).
Proof.
  intros. unfold rootGenerate in H. apply generate_enters in H; [|constructor].
  rewrite Forall_forall in H. specialize (H _ H0). cbn [goodEnter withOptions eOpts] in H.
  destruct H as [H1 H2]. split; [cbn [List.length]; lia|].
  intros B. destruct H2 as [H2|H2]; auto.
  unfold withDefaults in H2. cbn [oBypassCyclicReferenceCheck] in H2. unfold getBool in H2. rewrite B in H2. discriminate H2.
Qed.

(* ---- cutoff *)
Definition cutoffResult (s : gst) : res (json * gst) :=
  Ok (JNull, mkG (gPos s) (gGlob s) (gCx s + 1) (gStack s) (EvCutoff :: gLog s)).

Lemma guarded_cutoff : forall E m s, shouldCutoff (eOpts E) (gCx s + 1) = true -> guarded E m s = cutoffResult s.
Proof.
  intros. unfold guarded, bindM, tick, cutoff, getCx, emit, ret, bindM. cbn [gCx]. rewrite H. reflexivity.
Qed.

Definition structural (g : gen) : bool :=
  match g with GArray _ _ _ _ _ _ | GObject _ _ _ _ | GRef _ _ | GComb _ => true | _ => false end.

Lemma cutoff_structural : forall E f g s, structural g = true -> 0 < oCutoffGenerationSteps (eOpts E) <= gCx s ->
  generate E (S f) g s = cutoffResult s.
Proof.
  intros E f g s H Hc.
  assert (C : shouldCutoff (eOpts E) (gCx s + 1) = true).
  { unfold shouldCutoff. apply andb_true_intro. split; apply Z.ltb_lt; lia. }
  destruct g; try discriminate H; cbn [generate genStep].
  - unfold genArray. apply guarded_cutoff; auto.
  - unfold genObject. apply guarded_cutoff; auto.
  - apply guarded_cutoff; auto.
  - unfold genRef. apply guarded_cutoff; auto.
Qed.

(* past the cutoff a constrained generator makes a single attempt *)
Lemma cutoff_constrained : forall E f g cs s, 0 < oCutoffGenerationSteps (eOpts E) < gCx s ->
  generate E (S f) (GConstrained g cs) s =
  match generate E f g s with
  | Ok (v, s1) => Ok (v, mkG (gPos s1) (gGlob s1) (gCx s1) (gStack s1) (EvUnchecked :: gLog s1))
  | Panic w => Panic w
  | Timeout => Timeout
  end.
Proof.
  intros. cbn [generate genStep]. unfold genConstrained, bindM at 1.
  destruct (generate E f g s) as [[v s1]| |] eqn:R; auto.
  apply generate_after in R. destruct R as (_ & _ & R & _).
  unfold bindM, cutoff, getCx, bindM, ret, emit. unfold shouldCutoff.
  assert (X : (0 <? oCutoffGenerationSteps (eOpts E)) && (oCutoffGenerationSteps (eOpts E) <? gCx s1) = true)
    by (apply andb_true_intro; split; apply Z.ltb_lt; lia).
  rewrite X. reflexivity.
Qed.

Lemma counter_monotone : forall E f g s v s', generate E f g s = Ok (v, s') -> gCx s <= gCx s'.
Proof. intros. apply generate_after in H. apply H. Qed.

(* ---- a history of Generate calls on the same environment *)
Fixpoint history (E : env) (fuel : nat) (calls : list (genOptions * gen)) (pos glob : nat) :
  list (res json * (nat * nat)) :=
  match calls with
  | [] => []
  | (o, g) :: r =>
      match rootGenerate E o fuel g pos glob with
      | Ok (v, s) => (Ok v, (pos, glob)) :: history E fuel r (gPos s) (gGlob s)
      | Panic w => [(Panic w, (pos, glob))]
      | Timeout => [(Timeout, (pos, glob))]
      end
  end.

Definition valueOf (r : res (json * gst)) : res json :=
  match r with Ok (v, _) => Ok v | Panic w => Panic w | Timeout => Timeout end.

Lemma history_independent : forall E fuel calls pos glob i r p q o g,
  nth_error (history E fuel calls pos glob) i = Some (r, (p, q)) -> nth_error calls i = Some (o, g) ->
  r = valueOf (rootGenerate (shiftEnv p q E) o fuel g 0 0).
Proof.
  induction calls as [|[o g] rest IH]; intros pos glob i r p q o' g' H1 H2; [destruct i; discriminate H1|].
  cbn [history] in H1.
  assert (HD : forall x, rootGenerate E o fuel g pos glob = x ->
     valueOf x = valueOf (rootGenerate (shiftEnv pos glob E) o fuel g 0 0)).
  { intros x <-. unfold rootGenerate. pose proof (generate_shift (withOptions o E) fuel g pos glob) as S.
    change (shiftEnv pos glob (withOptions o E)) with (withOptions o (shiftEnv pos glob E)) in S.
    destruct (generate (withOptions o E) fuel g (initG pos glob)) as [[v s]| |].
    - destruct S as (s' & -> & _). reflexivity.
    - rewrite S; reflexivity.
    - rewrite S; reflexivity. }
  destruct i as [|i].
  - cbn [nth_error] in H2. injection H2 as <- <-.
    destruct (rootGenerate E o fuel g pos glob) as [[v s]| |] eqn:R; cbn [nth_error] in H1; injection H1 as <- <- <-;
    apply (HD _ eq_refl).
  - destruct (rootGenerate E o fuel g pos glob) as [[v s]| |] eqn:R; cbn [nth_error] in H1, H2.
    + eapply IH; eauto.
    + destruct i; discriminate H1.
    + destruct i; discriminate H1.
Qed.

(* ---- options *)
(* every integer option with its documented default *)
Definition intOptions : list ((genOptions -> Z) * Z) :=
  [(oDefaultNumberMinimum, 0); (oDefaultNumberMaximum, 100); (oDefaultStringMinLength, 0); (oDefaultStringMaxLength, 100);
   (oDefaultArrayMinItems, 0); (oDefaultArrayMaxItems, 10); (oDefaultObjectMinProperties, 0); (oDefaultObjectMaxProperties, 10);
   (oMaximumReferenceDepth, 10); (oMaximumUniqueGeneratorAttempts, 100); (oMaximumIfAttempts, 100); (oMaximumOneOfAttempts, 100);
   (oMaximumGenerationSteps, 100); (oCutoffGenerationSteps, 2000)].

Lemma int_options_used : forall o f d, In (f, d) intOptions -> f (withDefaults o) = if f o =? 0 then d else f o.
Proof.
  intros o f d H. unfold intOptions in H. simpl in H.
  assert (X : forall a b, getInt a b = if a =? 0 then b else a) by (intros; unfold getInt; destruct (a =? 0); reflexivity).
  repeat (destruct H as [H|H]; [injection H as <- <-; cbn; apply X|]). destruct H.
Qed.

Lemma bypass_used : forall o, oBypassCyclicReferenceCheck (withDefaults o) = oBypassCyclicReferenceCheck o.
Proof. intros. cbn. unfold getBool. destruct (oBypassCyclicReferenceCheck o); reflexivity. Qed.

Lemma suppress_ignored : forall o, oSuppressFallbackValues (withDefaults o) = true.
Proof. intros. cbn. unfold getBool. destruct (oSuppressFallbackValues o); reflexivity. Qed.

Definition sameButNumberStringDefaults (o o' : genOptions) : Prop :=
  oDefaultArrayMinItems o = oDefaultArrayMinItems o' /\ oDefaultArrayMaxItems o = oDefaultArrayMaxItems o' /\
  oDefaultObjectMinProperties o = oDefaultObjectMinProperties o' /\ oDefaultObjectMaxProperties o = oDefaultObjectMaxProperties o' /\
  oMaximumReferenceDepth o = oMaximumReferenceDepth o' /\ oBypassCyclicReferenceCheck o = oBypassCyclicReferenceCheck o' /\
  oMaximumUniqueGeneratorAttempts o = oMaximumUniqueGeneratorAttempts o' /\ oMaximumIfAttempts o = oMaximumIfAttempts o' /\
  oMaximumOneOfAttempts o = oMaximumOneOfAttempts o' /\ oMaximumGenerationSteps o = oMaximumGenerationSteps o' /\
  oCutoffGenerationSteps o = oCutoffGenerationSteps o'.

Lemma number_string_defaults_ignored : forall E o o' fuel g pos glob, sameButNumberStringDefaults o o' ->
  rootGenerate E o fuel g pos glob = rootGenerate E o' fuel g pos glob.
Proof.
  intros E o o' fuel g pos glob (H1 & H2 & H3 & H4 & H5 & H6 & H7 & H8 & H9 & H10 & H11).
  unfold rootGenerate. apply generate_core; auto. unfold sameEnv. cbn [withOptions eOpts eRefs eSentence eFormat eRegen eValid eMatch eIsFormat].
  repeat split; auto. unfold core, withDefaults. cbn. rewrite H1, H2, H3, H4, H5, H6, H7, H8, H9, H10, H11.
  unfold getBool. destruct (oSuppressFallbackValues o), (oSuppressFallbackValues o'); reflexivity.
Qed.

(* ---- a concrete environment for the examples: a cyclic reference, all oracles constant *)
Definition demoTree : gen :=
  GObject [("next", GRef "doc" "#")] [] None (mkObj true 0 0 ["next"]).
Definition demoEnv : env :=
  mkEnv zeroOptions [("doc", [("#", demoTree)])] (fun i => Z.of_nat i) (fun i => Z.of_nat i)
    (fun _ => "ab") (fun _ _ => "x") (fun _ _ => Ok "r") (fun _ _ => true) (fun _ _ => false) (fun _ _ => false).

Lemma demo_sensible : sensibleText demoEnv.
Proof. split; simpl; discriminate. Qed.
Lemma demo_run : exists v s, rootGenerate demoEnv zeroOptions 50 demoTree 0 0 = Ok (v, s) /\
  In (EvEnter "doc|#" []) (gLog s) /\ In (EvCyclic "doc|#") (gLog s).
Proof. eexists. eexists. split; [vm_compute; reflexivity|]. simpl. tauto. Qed.
Lemma demo_cutoff : 0 < oCutoffGenerationSteps (eOpts (withOptions zeroOptions demoEnv)) <= gCx (mkG 0 0 2000 [] []).
Proof. vm_compute. split; congruence. Qed.
