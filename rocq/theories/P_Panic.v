(* C48: a parsed schema does not make generation panic. *)
From Coq Require Import ZArith Reals List String Bool Lia Lra.
From Flocq Require Import Core BinarySingleNaN.
From Verif Require Import Base Float64 Json Schema NodeFacts Util Options Number Gen GenInv PState RefPath Merge Parse.
From Verif Require Import SpecRun SpecPanic NoPanic NumberRefute MergeProps ValueDemo.
Import ListNotations.
Open Scope string_scope.
Open Scope Z_scope.

(* If parsing a document succeeds, generation never panics, whatever the source of random numbers, the
   state it starts from and the number of steps it takes: for documents, and documents they refer to, that
   are tame (SpecPanic.v), options below 2^60 and a regular expression generator that does not panic itself.
   Missing from the full statement: the documents that are not tame, of which the two theorems below show
   that some do panic. *)
Theorem C48_no_panic_partial : forall PE GE ms fuel parsing rootId n g s' fuel' st w,
  smallOptions (eOpts GE) -> (forall p d w, eRegen GE p d <> Panic w) ->
  chain ms -> tame ms n -> (forall p d m, pxFetch PE p d = Some m -> tame ms m) ->
  parseDoc PE fuel parsing rootId n = Ok (Good g, s') -> eRefs GE = pRefs s' ->
  representable g = true -> (forall d p x, lookup GE d p = Some x -> representable x = true) ->
  generate GE fuel' g st <> Panic w.
Proof. intros PE GE ms fuel parsing rootId n g s' fuel' st w HO HR HC HT HF HP HE HG HL. exact (no_panic GE PE ms fuel parsing rootId n g s' HO HR HC HT HF HP HE HG HL fuel' st w). Qed.
Print Assumptions C48_no_panic_partial.

(* {"type": "object", "properties": {"amount": {"$ref": "#/$defs/amount"}, "note": {"type": ["string", "integer"]}},
    "required": ["amount"], "$defs": {"amount": {"type": "number", "minimum": 0, "maximum": 100, "multipleOf": 5}}} *)
Definition amount : schemaNode :=
  set_sMultipleOf (Some (fofZ 5)) (set_sMinimum (Some (fofZ 0)) (set_sMaximum (Some (fofZ 100)) (typed "number" emptyNode))).
Definition order : schemaNode :=
  set_sProperties (Some [("amount", set_sRef (Some "#/$defs/amount") emptyNode); ("note", set_sType (Some (mkMT "" (Some ["string"; "integer"]))) emptyNode)])
    (set_sRequired (Some ["amount"]) (set_sDefs (Some [("amount", amount)]) (typed "object" emptyNode))).
(* the environment of the generation that follows a parse *)
Definition after (GE : env) (s : pst) : env :=
  mkEnv (eOpts GE) (pRefs s) (eRand GE) (eGlob GE) (eSentence GE) (eFormat GE) (eRegen GE) (eValid GE) (eMatch GE) (eIsFormat GE).
Definition runAfter (k1 k2 : nat) (GE : env) (n : schemaNode) : option json :=
  match parseDoc demoPE k1 "file:///w/" "file:///w/doc" n with
  | Ok (Good g, s) =>
      if representable g && forallb (fun m => forallb (fun x => representable (snd x)) (snd m)) (pRefs s)
      then match generate (after GE s) k2 g start with Ok (v, _) => Some v | Panic w => Some (JStr w) | Timeout => None end
      else None
  | _ => None
  end.
Lemma tame_by : forall ms n, tameNode ms n -> (forall c, In c (subnodes n) -> tame ms c) -> tame ms n.
Proof. intros ms n T H m W. destruct W as [n|n c d Hc Hd]; auto. exact (H c Hc d Hd). Qed.
Lemma small_int : forall z, Z.abs z <= 2 ^ 53 -> is_finite (fofZ z) = true /\ (Rabs (B2R (fofZ z)) <= IZR (2 ^ 54))%R.
Proof. intros z H. split; [apply fofZ_F; auto|]. rewrite fofZ_B by auto. rewrite <- abs_IZR. apply IZR_le. lia. Qed.
Lemma order_tame : tame (fun m => m = fofZ 5) order.
Proof.
  assert (T0 : forall n, sMinItems n = None -> sMaxItems n = None -> sMinContains n = None -> sMaxContains n = None -> sMinProperties n = None -> sMaxProperties n = None ->
    sMinimum n = None -> sMaximum n = None -> sExclusiveMinimum n = None -> sExclusiveMaximum n = None -> sMultipleOf n = None ->
    (forall t, sType n = Some t -> mtMultiple t <> Some []) -> tameNode (fun m => m = fofZ 5) n).
  { intros n Z1 Z2 Z3 Z4 Z5 Z6 E1 E2 E3 E4 E5 T. unfold tameNode. rewrite Z1, Z2, Z3, Z4, Z5, Z6, E1, E2, E3, E4, E5. split; [exact T|].
    split; [intros k [X|[X|[X|[X|[X|[X|[]]]]]]]; discriminate X|]. split; [intros b [X|[X|[X|[X|[]]]]]; discriminate X|]. intros m X. discriminate X. }
  apply tame_by; [apply T0; try reflexivity; intros t X; injection X as <-; discriminate|].
  intros c [<-|[<-|[<-|[]]]].
  - apply tame_by; [apply T0; try reflexivity; intros t X; discriminate X|]. intros c [].
  - apply tame_by; [apply T0; try reflexivity; intros t X; injection X as <-; discriminate|]. intros c [].
  - change (tame (fun m => m = fofZ 5) amount). apply tame_by; [|intros c []]. unfold tameNode.
    change (sType amount) with (Some (mkMT "number" None)). change (sMinimum amount) with (Some (fofZ 0)). change (sMaximum amount) with (Some (fofZ 100)).
    change (sExclusiveMinimum amount) with (@None f64). change (sExclusiveMaximum amount) with (@None f64). change (sMultipleOf amount) with (Some (fofZ 5)).
    split; [intros t X; injection X as <-; discriminate|]. split; [intros k [X|[X|[X|[X|[X|[X|[]]]]]]]; discriminate X|].
    pose proof (small_int 0 ltac:(lia)) as A. pose proof (small_int 100 ltac:(lia)) as B. revert A B.
    generalize (fofZ 0) (fofZ 100) (fofZ 5). intros a b m A B. split.
    + intros f [X|[X|[X|[X|[]]]]]; try discriminate X; injection X as <-; [exact A|exact B].
    + intros m' X. injection X as <-. reflexivity.
Qed.
Lemma five_chain : chain (fun m => m = fofZ 5).
Proof.
  split.
  - intros m ->. split; [apply fofZ_F; lia|]. rewrite fofZ_B by lia. split; [lra|apply IZR_le; lia].
  - intros a b -> ->. exists 1. left. ring.
Qed.
Definition okOrder (v : option json) : bool :=
  match v with
  | Some (JObj [("amount", JFloat f); ("note", JInt 0)]) => feqb f (fofZ 40)
  | _ => false
  end.
Lemma runAfter_ok : forall k1 k2 GE n v, runAfter k1 k2 GE n = v -> okOrder v = true ->
  exists g s', parseDoc demoPE k1 "file:///w/" "file:///w/doc" n = Ok (Good g, s') /\ representable g = true /\
  (forall d p x, lookup (after GE s') d p = Some x -> representable x = true) /\
  exists w st', generate (after GE s') k2 g start = Ok (w, st') /\ okOrder (Some w) = true.
Proof.
  intros k1 k2 GE n v R. unfold runAfter in R. destruct (parseDoc demoPE k1 "file:///w/" "file:///w/doc" n) as [[[g|] s]| |]; try (subst v; discriminate).
  destruct (representable g) eqn:Rg; [|subst v; discriminate]. cbn [andb] in R.
  destruct (forallb _ (pRefs s)) eqn:F; [|subst v; discriminate].
  destruct (generate (after GE s) k2 g start) as [[w st]| |] eqn:G; try (subst v; discriminate).
  intros K. exists g, s. split; [reflexivity|]. split; [exact Rg|]. split; [|exists w, st; split; [exact G|subst v; exact K]].
  intros d p x L. unfold lookup in L. change (eRefs (after GE s)) with (pRefs s) in L. destruct (assoc d (pRefs s)) as [m|] eqn:A; [|discriminate L].
  apply assoc_In in A, L. rewrite forallb_forall in F. specialize (F _ A). rewrite forallb_forall in F. exact (F _ L).
Qed.
Example C48_case : exists ms fuel g s', chain ms /\ tame ms order /\ smallOptions (eOpts (after (drawing 7 3) s')) /\
  parseDoc demoPE fuel "file:///w/" "file:///w/doc" order = Ok (Good g, s') /\ representable g = true /\
  (forall d p x, lookup (after (drawing 7 3) s') d p = Some x -> representable x = true) /\
  exists fuel' v st', generate (after (drawing 7 3) s') fuel' g start = Ok (v, st') /\ okOrder (Some v) = true.
Proof.
  assert (R : okOrder (runAfter 30 30 (drawing 7 3) order) = true) by (vm_compute; reflexivity).
  destruct (runAfter_ok 30 30 (drawing 7 3) order _ eq_refl R) as (g & s & P & A & B & v & st & G & K).
  exists (fun m => m = fofZ 5), 30%nat, g, s. split; [apply five_chain|]. split; [apply order_tame|]. split; [apply drawing_small|].
  split; [exact P|]. split; [exact A|]. split; [exact B|]. exists 30%nat, v, st. split; [exact G|exact K].
Qed.

(* The full statement is false.  {"type": []} is accepted and generation panics. *)
Theorem C48_empty_types_refuted : exists fuel g s' fuel' w,
  parseDoc demoPE fuel "file:///w/" "file:///w/doc" (set_sType (Some (mkMT "" (Some []))) emptyNode) = Ok (Good g, s') /\ pErrs s' = [] /\
  generate (after (drawing 7 3) s') fuel' g start = Panic w.
Proof. exists 20%nat. eexists _, _, 20%nat, _. split; [vm_compute; reflexivity|]. split; [reflexivity|]. vm_compute. reflexivity. Qed.
Print Assumptions C48_empty_types_refuted.

(* So is {"type": "number", "minimum": -1, "maximum": 1e20, "multipleOf": 1}: there are more multiples than a
   64 bit integer can count. *)
Definition manyMultiples : schemaNode :=
  set_sMinimum (Some (fofZ (-1))) (set_sMaximum (Some (fofZ (10 ^ 20))) (set_sMultipleOf (Some (fofZ 1)) (typed "number" emptyNode))).
Theorem C48_many_multiples_refuted : exists fuel g s' fuel' w,
  parseDoc demoPE fuel "file:///w/" "file:///w/doc" manyMultiples = Ok (Good g, s') /\ pErrs s' = [] /\
  generate (after (drawing 7 3) s') fuel' g start = Panic w.
Proof.
  exists 20%nat.
  assert (R : match parseDoc demoPE 20 "file:///w/" "file:///w/doc" manyMultiples with
    | Ok (Good g, s) => match generate (after (drawing 7 3) s) 20 g start with Panic w => match pErrs s with [] => true | _ => false end | _ => false end
    | _ => false end = true) by (vm_compute; reflexivity).
  destruct (parseDoc demoPE 20 "file:///w/" "file:///w/doc" manyMultiples) as [[[g|] s]| |]; try discriminate R.
  destruct (generate (after (drawing 7 3) s) 20 g start) as [| w |] eqn:G; try discriminate R. destruct (pErrs s) eqn:Er; [|discriminate R].
  exists g, s, 20%nat, w. split; [reflexivity|]. split; [exact Er|exact G].
Qed.
Print Assumptions C48_many_multiples_refuted.
