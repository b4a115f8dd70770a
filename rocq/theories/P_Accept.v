(* Property C64: which string, object and array schemas the parser accepts.  r is what parsing the node returned, from
   any state within the depth limit, for any options, libraries and documents PE. *)
From Coq Require Import ZArith List String Bool Lia.
From Verif Require Import Base Float64 Json Schema Util Options Number Gen GenInv PState RefPath Merge NotMerge Parse.
From Verif Require Import SpecSchema SpecRun ValueDemo MergeProps SpecAccept Accept.
Import ListNotations.
Open Scope string_scope.
Open Scope Z_scope.

(* ---- strings ---- *)
Theorem C64_strings : forall PE n fuel s r s', plain n -> ofType "string" n -> noDependents n ->
  pDepth s + 1 <= pxMaxDepth PE -> parseNode PE fuel n s = Ok (r, s') ->
  ((exists g, r = Good g) <-> stringFits PE n).
Proof. exact string_decided. Qed.
Print Assumptions C64_strings.

(* if some length is allowed, the schema is accepted.  Missing from the full statement: pattern and format *)
Theorem C64_strings_satisfiable_partial : forall PE n fuel s r s' len, plain n -> ofType "string" n -> noDependents n ->
  pDepth s + 1 <= pxMaxDepth PE -> parseNode PE fuel n s = Ok (r, s') ->
  sPattern n = None -> sFormat n = None -> meetsSize (sMinLength n) (sMaxLength n) len ->
  exists g, r = Good g.
Proof. exact string_satisfiable. Qed.
Print Assumptions C64_strings_satisfiable_partial.

(* ---- objects ---- *)
Theorem C64_objects : forall PE n fuel s r s', plain n -> ofType "object" n -> noDependents n ->
  pDepth s + 1 <= pxMaxDepth PE -> parseNode PE fuel n s = Ok (r, s') ->
  ((exists g, r = Good g) <-> objectFits n).
Proof. exact object_decided. Qed.
Print Assumptions C64_objects.

(* if some set of names is allowed, the schema is accepted *)
Theorem C64_objects_satisfiable : forall PE n fuel s r s' keys, plain n -> ofType "object" n -> noDependents n ->
  pDepth s + 1 <= pxMaxDepth PE -> parseNode PE fuel n s = Ok (r, s') ->
  NoDup (get_or (sRequired n) []) -> NoDup keys -> meetsSize (sMinProperties n) (sMaxProperties n) (Z.of_nat (List.length keys)) ->
  incl (get_or (sRequired n) []) keys ->
  (addlFalse n = true -> sPatternProperties n = None -> incl keys (map fst (get_or (sProperties n) []))) ->
  exists g, r = Good g.
Proof. exact object_satisfiable. Qed.
Print Assumptions C64_objects_satisfiable.

(* ---- arrays ---- *)
Theorem C64_arrays : forall PE n fuel s r s', plain n -> ofType "array" n -> noDependents n ->
  pDepth s + 1 <= pxMaxDepth PE -> parseNode PE fuel n s = Ok (r, s') ->
  ((exists g, r = Good g) -> arrayFits n /\ memberSchemas PE n) /\
  (arrayFits n -> (exists g, r = Good g) \/ exists c, itemSchema PE n c /\ rejected PE c).
Proof. exact array_decided. Qed.
Print Assumptions C64_arrays.

(* if some length with room for prefixItems is allowed, the schema is accepted unless the schema of a member is refused.
   Missing from the full statement: contains, and lengths that cut prefixItems short *)
Theorem C64_arrays_satisfiable_partial : forall PE n fuel s r s' len, plain n -> ofType "array" n -> noDependents n ->
  pDepth s + 1 <= pxMaxDepth PE -> parseNode PE fuel n s = Ok (r, s') ->
  sContains n = None -> sMinContains n = None -> sMaxContains n = None ->
  meetsSize (sMinItems n) (sMaxItems n) len -> prefixLength n <= len ->
  (exists g, r = Good g) \/ exists c, itemSchema PE n c /\ rejected PE c.
Proof. exact array_satisfiable. Qed.
Print Assumptions C64_arrays_satisfiable_partial.

(* ---- concrete schemas ---- *)
Definition verdict (x : res (err gen * pst)) : option bool :=
  match x with Ok (Good _, _) => Some true | Ok (Bad _, _) => Some false | _ => None end.
Lemma verdict_true : forall x, verdict x = Some true -> exists g s', x = Ok (Good g, s').
Proof. intros [[[g|m] s']| |] H; try discriminate H. exists g, s'. reflexivity. Qed.
Lemma verdict_false : forall x, verdict x = Some false -> exists m s', x = Ok (Bad m, s').
Proof. intros [[[g|m] s']| |] H; try discriminate H. exists m, s'. reflexivity. Qed.
Lemma verdict_good : forall n, verdict (parseNode demoPE 40 n demoP) = Some true -> exists g s', parseNode demoPE 40 n demoP = Ok (Good g, s').
Proof. intros n H. exact (verdict_true _ H). Qed.
Lemma verdict_bad : forall n, verdict (parseNode demoPE 40 n demoP) = Some false -> rejected demoPE n.
Proof. intros n H. apply verdict_false in H. destruct H as (m & s' & H). exists 40%nat, demoP, s', m. exact H. Qed.

(* {"minLength":1,"pattern":"a"}, {"prefixItems":[{"const":"a"}],"contains":{"const":"a"},"maxItems":1},
   {"contains":{"const":"a"},"minContains":2,"minItems":1} and {"prefixItems":[{"const":"a"},{"const":"b"}],"maxItems":1}
   are refused although "a", ["a"], ["a","a"] and ["a"] satisfy them *)
Theorem C64_satisfiable_refuted :
  rejected demoPE (set_sMinLength (Some 1) (set_sPattern (Some "a") (typed "string" emptyNode))) /\
  rejected demoPE (set_sMaxItems (Some 1) (set_sContains (Some (isConst "a")) (set_sPrefixItems (Some [isConst "a"]) (typed "array" emptyNode)))) /\
  rejected demoPE (set_sMinItems (Some 1) (set_sMinContains (Some 2) (set_sContains (Some (isConst "a")) (typed "array" emptyNode)))) /\
  rejected demoPE (set_sMaxItems (Some 1) (set_sPrefixItems (Some [isConst "a"; isConst "b"]) (typed "array" emptyNode))).
Proof.
  split; [|split; [|split]]; apply verdict_bad; vm_compute; reflexivity.
Qed.
Print Assumptions C64_satisfiable_refuted.

Example C64_case :
  let st := set_sMinLength (Some 2) (set_sMaxLength (Some 3) (typed "string" emptyNode)) in
  let ob := set_sRequired (Some ["a"; "b"]) (set_sMaxProperties (Some 2) (set_sProperties abc
              (set_sAdditionalProperties (Some (mkNOF None true)) (typed "object" emptyNode)))) in
  let ar := set_sMinItems (Some 2) (set_sMaxItems (Some 3) (set_sPrefixItems (Some [isConst "a"]) (typed "array" emptyNode))) in
  pDepth demoP + 1 <= pxMaxDepth demoPE /\
  (forall n, In n [st; ob; ar] -> plain n /\ noDependents n /\ exists g s', parseNode demoPE 40 n demoP = Ok (Good g, s')) /\
  ofType "string" st /\ ofType "object" ob /\ ofType "array" ar /\
  meetsSize (sMinLength st) (sMaxLength st) 3 /\ meetsSize (sMinProperties ob) (sMaxProperties ob) 2 /\
  incl (get_or (sRequired ob) []) ["a"; "b"] /\ incl ["a"; "b"] (map fst (get_or (sProperties ob) [])) /\ addlFalse ob = true /\
  meetsSize (sMinItems ar) (sMaxItems ar) 2 /\ prefixLength ar = 1.
Proof.
  cbv zeta.
  assert (S : forall lo hi k, 0 <= k -> 0 <= get_or lo 0 <= k -> k <= get_or hi k -> meetsSize lo hi k).
  { intros lo hi k A B C. split; [exact A|]. split; intros x ->; exact B || exact C. }
  split; [vm_compute; discriminate|]. split.
  - intros n H. cbn [In] in H. destruct H as [<-|[<-|[<-|[]]]]; (split; [constructor; reflexivity|split; [split; reflexivity|]]);
      apply verdict_good; vm_compute; reflexivity.
  - split; [exact eq_refl|]. split; [exact eq_refl|]. split; [exact eq_refl|].
    split; [apply S; cbn; lia|]. split; [apply S; cbn; lia|].
    split; [intros x H; exact H|]. split; [intros x [<-|[<-|[]]]; [left; exact eq_refl|right; left; exact eq_refl]|].
    split; [exact eq_refl|]. split; [apply S; cbn; lia|exact eq_refl].
Qed.
