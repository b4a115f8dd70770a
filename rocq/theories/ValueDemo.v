(* Concrete runs used as non-vacuity cases and as counterexamples in P_Values.v and P_Constr.v. *)
From Coq Require Import ZArith List String Bool Lia.
From Verif Require Import Base Float64 Json Schema Util Options Number Gen GenProps PState RefPath Merge NotMerge Parse SpecRun SpecParse MergeProps.
Import ListNotations.
Open Scope string_scope.
Open Scope Z_scope.

(* the default options; a const is checked by comparing encodings, everything else is valid *)
Definition demoValid (n : schemaNode) (v : json) : bool :=
  match sConst n with Some w => same_text (marshal v) (marshal w) | None => true end.
Definition drawing (r g : Z) : env :=
  mkEnv (withDefaults zeroOptions) [] (fun _ => r) (fun _ => g)
    (fun _ => "ab") (fun _ _ => "x") (fun _ _ => Ok "r") demoValid (fun _ _ => false) (fun _ _ => false).
Definition typed (t : string) (n : schemaNode) : schemaNode := set_sType (Some (mkMT t None)) n.
Definition isConst (s : string) : schemaNode := set_sConst (Some (JStr s)) emptyNode.
Definition start : gst := initG 0 0.

(* parse n, then generate once *)
Definition runWith (PE : penv) (p : pst) (st0 : gst) (k1 k2 : nat) (GE : env) (n : schemaNode) : res (json * (pst * gst)) :=
  match parseNode PE k1 n p with
  | Ok (Good g, s) => match generate GE k2 g st0 with
                      | Ok (v, st) => Ok (v, (s, st))
                      | Panic w => Panic w
                      | Timeout => Timeout
                      end
  | Ok (Bad m, _) => Panic m
  | Panic w => Panic w
  | Timeout => Timeout
  end.
(* the schema n is accepted and, from the start, generates v while logging l *)
Definition givesFrom (PE : penv) (st0 : gst) (GE : env) (n : schemaNode) (v : json) (l : list event) : Prop :=
  exists g st, accepted PE n g /\ yields GE g st0 v st /\ gLog st = l.
Definition gives : env -> schemaNode -> json -> list event -> Prop := givesFrom demoPE start.
Definition runResult (r : res (json * (pst * gst))) : option (json * list event) :=
  match r with Ok (v, (_, st)) => Some (v, gLog st) | _ => None end.
Lemma gives_run : forall PE p st0 k1 k2 GE n v l, runResult (runWith PE p st0 k1 k2 GE n) = Some (v, l) ->
  givesFrom PE st0 GE n v l.
Proof.
  intros PE p st0 k1 k2 GE n v l H. unfold runWith in H.
  destruct (parseNode PE k1 n p) as [[[g|m] s0]| |] eqn:P; try discriminate.
  destruct (generate GE k2 g st0) as [[w st1]| |] eqn:G; try discriminate.
  injection H as -> <-. exists g, st1. split; [exists k1, p, s0; exact P|]. split; [exists k2; exact G|reflexivity].
Qed.
Ltac demo := apply (gives_run demoPE demoP start 40 60); vm_compute; reflexivity.

Lemma drawing_small : forall r g, smallOptions (eOpts (drawing r g)).
Proof. intros r g k H. vm_compute in H. repeat (destruct H as [<-|H]; [lia|]). destruct H. Qed.
Lemma small_by : forall n,
  forallb (fun o => match o with Some k => (0 <=? k) && (k <? 2 ^ 60) | None => true end)
    [sMinLength n; sMaxLength n; sMinItems n; sMaxItems n; sMinContains n; sMaxContains n; sMinProperties n; sMaxProperties n]
  && (Z.of_nat (List.length (get_or (sPrefixItems n) [])) <? 2 ^ 60)
  && (Z.of_nat (List.length (get_or (sProperties n) [])) <? 2 ^ 60) && (Z.of_nat (List.length (get_or (sRequired n) [])) <? 2 ^ 60) = true ->
  smallSizes n.
Proof.
  intros n H. apply andb_prop in H. destruct H as [H H3]. apply andb_prop in H. destruct H as [H H2]. apply andb_prop in H. destruct H as [H H1].
  rewrite forallb_forall in H. split; [|lia]. intros k I. apply H in I. lia.
Qed.

(* the schemas used *)
Definition arrayOf := typed "array".
Definition objectOf := typed "object".
Definition itemsAre (n : schemaNode) : option (itemsData schemaNode) := Some (mkItems (Some n) (Some []) false).
Definition itemsList (l : list schemaNode) : option (itemsData schemaNode) := Some (mkItems (Some emptyNode) (Some l) false).
Definition noItems : option (itemsData schemaNode) := Some (mkItems None None true).
Definition noMore : option (nodeOrFalse schemaNode) := Some (mkNOF None true).
Definition moreAre (n : schemaNode) : option (nodeOrFalse schemaNode) := Some (mkNOF (Some n) false).
Definition abc : option (list (string * schemaNode)) := Some [("a", isConst "1"); ("b", isConst "2"); ("c", isConst "3")].

(* a validator that only looks at "type":"string" *)
Definition stringPE : penv := mkPE 100 false (fun _ _ _ => None) (fun _ _ => None) (fun _ _ => "") (fun _ => false)
  (fun _ => true) (fun _ => true) (fun _ => true) (fun _ => true)
  (fun n v => match sType n, v with Some (mkMT "string" None), JStr _ => true | Some (mkMT "string" None), _ => false | _, _ => true end)
  (fun _ => true).

(* an accepted parse without errors, as a boolean *)
Definition okN (r : res (err gen * pst)) : bool := match r with Ok (Good _, s) => match pErrs s with [] => true | _ => false end | _ => false end.
Lemma okN_ex : forall r, okN r = true -> exists g s', r = Ok (Good g, s') /\ pErrs s' = [].
Proof. intros [[[g|m] s]| |] H; try discriminate. exists g, s. cbn in H. destruct (pErrs s); [auto|discriminate]. Qed.
