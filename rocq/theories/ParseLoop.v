(* A schema the parser never finishes: {"not": {"not": {"$ref": "#"}}} in a document with an id. *)
From Coq Require Import ZArith List String Ascii Bool Lia.
From Verif Require Import Base Float64 Json Schema Util Number Gen Codec PState PFacts RefPath Merge NotMerge Parse MergeProps FuelMono.
Import ListNotations.
Open Scope string_scope.
Open Scope Z_scope.

Definition notNot (ref : string) : schemaNode := set_sNot (Some (set_sNot (Some (set_sRef (Some ref) emptyNode)) emptyNode)) emptyNode.
Definition loopDoc : string := "file:///w/doc".
Definition before (mrg : list schemaNode -> P schemaNode) (n : schemaNode) : P (list schemaNode * schemaNode) :=
  let* p := partitionNots mrg 0 (collectNots n) in
  let '(singles, doubles) := p in
  let n := set_sNot None (set_sMergedNot [] n) in
  let* n := match doubles with [] => pret n | _ => mrg (n :: doubles) end in pret (singles, n).
Lemma parseNot_before : forall recN recS mrg nots n s, parseNot recN recS mrg nots n s =
  pbind (before mrg n) (fun p => match fst p with
  | [] => recS (snd p)
  | singles => let* flat := mrg [snd p] in
      let* st := nots flat singles in
      let* r := recN (fst st) in
      match r with
      | Bad e => bad e
      | Good g => good (GConstrained g [CMulti (snd st)])
      end end) s.
Proof.
  intros. unfold parseNot, before, pbind. destruct (partitionNots mrg 0 (collectNots n) s) as [[[a b] t]| |]; auto.
  destruct b as [|x b]; [cbn; destruct a; reflexivity|]. destruct (mrg _ t) as [[m t']| |]; auto. cbn. destruct a; reflexivity.
Qed.
Lemma bl_before : forall f f' n, (f <= f')%nat -> below (before (merge demoPE f) n) (before (merge demoPE f') n).
Proof. intros f f' n H. unfold before. apply bl_bind; [apply bl_partitionNots; intros; apply bl_merge; auto|]. intros [a b]. apply bl_bind; [|intros; apply bl_refl]. destruct b; [apply bl_refl|apply bl_merge; auto]. Qed.

Definition loopState : pst := withDeep 1 (withDepth 1 (initP demoPE loopDoc loopDoc (notNot "#"))).
Definition loopNode : schemaNode := notNot "file:///w/doc#".
Lemma before_root : before (merge demoPE 20) (notNot "#") loopState = Ok (([], loopNode), loopState).
Proof. vm_compute. reflexivity. Qed.
Lemma before_loop : before (merge demoPE 20) loopNode loopState = Ok (([], loopNode), loopState).
Proof. vm_compute. reflexivity. Qed.
Lemma before_any : forall f n, before (merge demoPE 20) n loopState = Ok (([], loopNode), loopState) ->
  before (merge demoPE f) n loopState = Timeout \/ before (merge demoPE f) n loopState = Ok (([], loopNode), loopState).
Proof.
  intros f n H. destruct (bl_before f (Nat.max f 20) n (Nat.le_max_l _ _) loopState) as [K|K]; [auto|].
  destruct (bl_before 20 (Nat.max f 20) n (Nat.le_max_r _ _) loopState) as [L|L]; [congruence|]. right. congruence.
Qed.
Lemma not_timeout : forall recN recS f nots n, recS loopNode loopState = Timeout -> before (merge demoPE 20) n loopState = Ok (([], loopNode), loopState) ->
  parseNot recN recS (merge demoPE f) nots n loopState = Timeout.
Proof.
  intros recN recS f nots n Hs H. rewrite parseNot_before. unfold pbind. destruct (before_any f n H) as [K|K]; rewrite K; auto.
Qed.
Lemma loops : forall f, parseF demoPE f true loopNode loopState = Timeout.
Proof.
  induction f as [|f IH]; [reflexivity|].
  change (parseNot (parseF demoPE f false) (parseF demoPE f true) (merge demoPE f) (fun n => applyNots demoPE f n emptyColl) loopNode loopState = Timeout).
  apply not_timeout; [exact IH|exact before_loop].
Qed.
Lemma root_loops : forall f, parseF demoPE f true (notNot "#") loopState = Timeout.
Proof.
  intros [|f]; [reflexivity|].
  change (parseNot (parseF demoPE f false) (parseF demoPE f true) (merge demoPE f) (fun n => applyNots demoPE f n emptyColl) (notNot "#") loopState = Timeout).
  apply not_timeout; [apply loops|exact before_root].
Qed.
Theorem never_ends : forall fuel, parseDoc demoPE fuel loopDoc loopDoc (notNot "#") = Timeout.
Proof.
  intros fuel. unfold parseDoc. unfold pbind at 1.
  assert (H : parseRoot demoPE fuel (notNot "#") (initP demoPE loopDoc loopDoc (notNot "#")) = Timeout); [|rewrite H; reflexivity].
  change (parseNode demoPE fuel (notNot "#") (initP demoPE loopDoc loopDoc (notNot "#")) = Timeout).
  destruct fuel as [|f]; [reflexivity|]. unfold parseNode. cbn [parseF]. unfold nodeStep.
  match goal with |- pbind pget ?k ?s = _ => change (k s s = Timeout) end. cbv beta.
  match goal with |- pbind (pmod ?g) ?k ?s = _ => change (k tt (g s) = Timeout) end. cbv beta.
  change (pxMaxDepth demoPE <? pDepth (initP demoPE loopDoc loopDoc (notNot "#")) + 1) with false. cbv iota.
  unfold pbind at 1. unfold pbind at 1.
  match goal with |- match match pmod ?g ?s with _ => _ end with _ => _ end = _ => change (pmod g s) with (Ok (tt, loopState)) end. cbv iota beta.
  unfold pbind at 1. rewrite root_loops. reflexivity.
Qed.
