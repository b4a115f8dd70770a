(* C63: the errors a user reads after parsing. *)
From Coq Require Import ZArith List String Bool Permutation.
From Verif Require Import Base Float64 Json Schema Util Number Gen PState Merge Parse Errors SpecParse ErrorsProps MergeProps ParseShape ValueDemo.
Import ListNotations.
Open Scope string_scope.
Open Scope Z_scope.

(* pErrs lists the reports made while parsing, each with its document and path, the newest first.  The list shown has an
   entry for every place something was reported for, and no other, whatever the order in which Go visits its maps. *)
Theorem C63_every_place : forall s visits k, Permutation visits (errorEntries (errorsOf s)) ->
  (assoc k (collectErrors visits) <> None <-> exists doc path, errorAt s doc path /\ k = doc ++ " -> " ++ path).
Proof.
  intros s visits k P. split.
  - intros H. destruct (assoc k (collectErrors visits)) as [tag|] eqn:E; [|congruence]. destruct (shown_from s visits P _ _ E) as (doc & path & -> & N).
    exists doc, path. split; [exists tag; apply newest_in; exact N|reflexivity].
  - intros (doc & path & A & ->). destruct (shown_some s visits P _ _ A) as (tag & E). rewrite E. discriminate.
Qed.
Print Assumptions C63_every_place.

(* the error shown is the last one reported for a place with that text *)
Theorem C63_last_error : forall s visits k tag, Permutation visits (errorEntries (errorsOf s)) -> assoc k (collectErrors visits) = Some tag ->
  exists doc path newer older, k = doc ++ " -> " ++ path /\ pErrs s = (newer ++ ((doc, path), tag) :: older)%list /\ forall t, ~ In ((doc, path), t) newer.
Proof.
  intros s visits k tag P E. destruct (shown_from s visits P _ _ E) as (doc & path & -> & N). exists doc, path. revert N. clear. generalize (pErrs s).
  induction l as [|[[d p] t] r IH]; intros N; [discriminate|]. cbn [newest] in N.
  destruct (String.eqb_spec d doc) as [->|D], (String.eqb_spec p path) as [->|Q]; cbn [andb] in N.
  - injection N as ->. exists [], r. repeat split. intros t [].
  - destruct (IH N) as (a & b & _ & E & F). exists (((doc, p), t) :: a), b. split; [reflexivity|]. split; [rewrite E; reflexivity|]. intros u [I|I]; [congruence|exact (F u I)].
  - destruct (IH N) as (a & b & _ & E & F). exists (((d, path), t) :: a), b. split; [reflexivity|]. split; [rewrite E; reflexivity|]. intros u [I|I]; [congruence|exact (F u I)].
  - destruct (IH N) as (a & b & _ & E & F). exists (((d, p), t) :: a), b. split; [reflexivity|]. split; [rewrite E; reflexivity|]. intros u [I|I]; [congruence|exact (F u I)].
Qed.
Print Assumptions C63_last_error.

Theorem C63_has_errors : forall s, hasErrors (errorsOf s) = true <-> exists doc path, errorAt s doc path.
Proof.
  intros s. rewrite has_any. split.
  - destruct (pErrs s) as [|[[d p] t] r] eqn:E; [congruence|]. intros _. exists d, p, t. rewrite E. left. reflexivity.
  - intros (d & p & t & I) E. rewrite E in I. destruct I.
Qed.
Print Assumptions C63_has_errors.

(* an object with two properties that cannot be generated: both are listed *)
Example C63_case : let n := set_sProperties (Some [("a", typed "string" (set_sMinLength (Some 5) (set_sMaxLength (Some 2) emptyNode))); ("b", typed "string" (set_sMinLength (Some 5) (set_sMaxLength (Some 2) emptyNode)))]) (typed "object" emptyNode) in
  exists r s, parseNode demoPE 20 n demoP = Ok (r, s) /\ hasErrors (errorsOf s) = true /\ List.length (collectErrors (errorEntries (errorsOf s))) = 2%nat.
Proof.
  cbv zeta.
  assert (H : okM (parseNode demoPE 20 (set_sProperties (Some [("a", typed "string" (set_sMinLength (Some 5) (set_sMaxLength (Some 2) emptyNode))); ("b", typed "string" (set_sMinLength (Some 5) (set_sMaxLength (Some 2) emptyNode)))]) (typed "object" emptyNode)) demoP)
    (fun _ s => hasErrors (errorsOf s) && Nat.eqb (List.length (collectErrors (errorEntries (errorsOf s)))) 2) = true) by (vm_compute; reflexivity).
  apply okM_ex in H. destruct H as (r & s & H1 & H2). apply andb_prop in H2. destruct H2 as [H2 H3]. exists r, s. split; [exact H1|]. split; [exact H2|]. apply PeanoNat.Nat.eqb_eq. exact H3.
Qed.

(* Two reports for one place: the first is lost.  {"allOf":[{"pattern":"a","format":"x"},{"pattern":"b","format":"y"}]} has two conflicts,
   both are reported while merging, and the list never shows the one about the pattern. *)
Theorem C30_overwritten_refuted : exists nodes m s', merge demoPE 9 nodes demoP = Ok (m, s') /\
  (exists doc path, In ((doc, path), "pattern") (pErrs s') /\ In ((doc, path), "format") (pErrs s')) /\
  forall visits k, Permutation visits (errorEntries (errorsOf s')) -> assoc k (collectErrors visits) <> Some "pattern".
Proof.
  exists [set_sPattern (Some "a") (set_sFormat (Some "x") emptyNode); set_sPattern (Some "b") (set_sFormat (Some "y") emptyNode)].
  assert (H : okM (merge demoPE 9 [set_sPattern (Some "a") (set_sFormat (Some "x") emptyNode); set_sPattern (Some "b") (set_sFormat (Some "y") emptyNode)] demoP)
    (fun _ s => match pErrs s with
                | [((d1, p1), t1); ((d2, p2), t2)] => String.eqb d1 d2 && String.eqb p1 p2 && String.eqb t1 "format" && String.eqb t2 "pattern"
                | _ => false end) = true) by (vm_compute; reflexivity).
  apply okM_ex in H. destruct H as (m & s & H1 & H2). exists m, s. split; [exact H1|].
  destruct (pErrs s) as [|[[d1 p1] t1] [|[[d2 p2] t2] [|? ?]]] eqn:E; try discriminate H2.
  repeat (apply andb_prop in H2; destruct H2 as [H2 ?]). repeat match goal with H : String.eqb _ _ = true |- _ => apply String.eqb_eq in H end. subst.
  split; [exists d2, p2; split; [right; left; reflexivity|left; reflexivity]|].
  intros visits k P A. destruct (shown_from s visits P _ _ A) as (doc & path & -> & N). rewrite E in N. cbn [newest] in N.
  destruct (String.eqb d2 doc && String.eqb p2 path)%bool; discriminate N.
Qed.
Print Assumptions C30_overwritten_refuted.
