(* Properties C23-C25, C27, C28: termination, references, cutoff, independence of calls, options.
   E holds everything generation reads: the registered references, the random streams and the external
   libraries; g is any generator. *)
From Coq Require Import ZArith List String Bool.
From Verif Require Import Base Float64 Json Schema Util Rand Options Number Gen GenInv GenRel GenProps.
Import ListNotations.
Open Scope string_scope.
Open Scope Z_scope.

(* ---- C23 ---- *)
(* for some depth of nested calls, chosen before the random streams, more depth changes nothing and
   the call returns *)
Theorem C23_generation_terminates : forall E o g, sensibleText E ->
  exists n, forall pos glob, exists r, r <> Timeout /\
    forall fuel, (n <= fuel)%nat -> rootGenerate E o fuel g pos glob = r.
Proof. exact root_terminates. Qed.
Print Assumptions C23_generation_terminates.

Example C23_case : sensibleText demoEnv. Proof. exact demo_sensible. Qed.

(* ---- C24 ---- *)
(* every entry into a reference during a run: the references open at that moment and the new one *)
Theorem C24_reference_entries : forall E o fuel g pos glob v s key open,
  rootGenerate E o fuel g pos glob = Ok (v, s) -> In (EvEnter key open) (gLog s) ->
  Z.of_nat (List.length (key :: open)) <= oMaximumReferenceDepth (withDefaults o) + 1 /\
  (oBypassCyclicReferenceCheck o = false -> ~ In key open).
Proof. exact root_enters. Qed.
Print Assumptions C24_reference_entries.

Theorem C24_stack_restored : forall E fuel g s v s',
  generate E fuel g s = Ok (v, s') -> gStack s' = gStack s.
Proof. exact generate_stack. Qed.
Print Assumptions C24_stack_restored.

Example C24_case : exists v s, rootGenerate demoEnv zeroOptions 50 demoTree 0 0 = Ok (v, s) /\
  In (EvEnter "doc|#" []) (gLog s) /\ In (EvCyclic "doc|#") (gLog s).
Proof. exact demo_run. Qed.

(* ---- C25 ---- *)
(* arrays, objects, references and combinations yield null, draw nothing and call nothing *)
Theorem C25_past_cutoff_nothing : forall E f g s, structural g = true ->
  0 < oCutoffGenerationSteps (eOpts E) <= gCx s ->
  generate E (S f) g s = Ok (JNull, mkG (gPos s) (gGlob s) (gCx s + 1) (gStack s) (EvCutoff :: gLog s)).
Proof. exact cutoff_structural. Qed.
Print Assumptions C25_past_cutoff_nothing.

(* constrained generators run their generator once and do not retry *)
Theorem C25_past_cutoff_no_retry : forall E f g cs s, 0 < oCutoffGenerationSteps (eOpts E) < gCx s ->
  generate E (S f) (GConstrained g cs) s =
  match generate E f g s with
  | Ok (v, s1) => Ok (v, mkG (gPos s1) (gGlob s1) (gCx s1) (gStack s1) (EvUnchecked :: gLog s1))
  | Panic w => Panic w
  | Timeout => Timeout
  end.
Proof. exact cutoff_constrained. Qed.
Print Assumptions C25_past_cutoff_no_retry.

Theorem C25_counter_never_decreases : forall E f g s v s', generate E f g s = Ok (v, s') -> gCx s <= gCx s'.
Proof. exact counter_monotone. Qed.
Print Assumptions C25_counter_never_decreases.

Example C25_case : 0 < oCutoffGenerationSteps (eOpts (withOptions zeroOptions demoEnv)) <= gCx (mkG 0 0 2000 [] []).
Proof. exact demo_cutoff. Qed.

(* ---- C27 ---- *)
(* the i-th call of any history gives what a first call gives on the random streams as they are then *)
Theorem C27_calls_independent : forall E fuel calls pos glob i r p q o g,
  nth_error (history E fuel calls pos glob) i = Some (r, (p, q)) -> nth_error calls i = Some (o, g) ->
  r = valueOf (rootGenerate (shiftEnv p q E) o fuel g 0 0).
Proof. exact history_independent. Qed.
Print Assumptions C27_calls_independent.

Example C27_case : List.length (history demoEnv 50 [(zeroOptions, demoTree); (zeroOptions, GBool); (zeroOptions, demoTree)] 0 0) = 3%nat.
Proof. vm_compute. reflexivity. Qed.

(* ---- C28 ---- *)
(* partial: every integer option that is set to something other than 0 is the one used, 0 gives the
   documented default, and the bypass option is used as given *)
Theorem C28_int_options_partial : forall o f d, In (f, d) intOptions ->
  f (withDefaults o) = if f o =? 0 then d else f o.
Proof. exact int_options_used. Qed.
Print Assumptions C28_int_options_partial.

Theorem C28_bypass_used : forall o, oBypassCyclicReferenceCheck (withDefaults o) = oBypassCyclicReferenceCheck o.
Proof. exact bypass_used. Qed.
Print Assumptions C28_bypass_used.

(* refuted for SuppressFallbackValues: false is never used *)
Theorem C28_suppress_fallback_refuted : forall o, oSuppressFallbackValues (withDefaults o) = true.
Proof. exact suppress_ignored. Qed.
Print Assumptions C28_suppress_fallback_refuted.

(* refuted for the number and string defaults: generation gives the same result whatever they are *)
Theorem C28_number_string_defaults_refuted : forall E o o' fuel g pos glob, sameButNumberStringDefaults o o' ->
  rootGenerate E o fuel g pos glob = rootGenerate E o' fuel g pos glob.
Proof. exact number_string_defaults_ignored. Qed.
Print Assumptions C28_number_string_defaults_refuted.
