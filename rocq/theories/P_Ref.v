(* Property C39: the schema a JSON pointer resolves to.  Steps, pointers and what they address: SpecRef.v. *)
From Coq Require Import ZArith List String Ascii Bool.
From Verif Require Import Base Json Schema Util Number RefPath SpecRef RefProps ValueDemo.
Import ListNotations.
Open Scope string_scope.
Open Scope Z_scope.

(* Pointers made of names and single-schema keywords, ending in a name (or empty): the schema found is
   exactly the addressed one.  Missing from the full statement: the cases refuted below, and names that
   need escaping in a pointer. *)
Theorem C39_resolves_partial : forall n l m, Forall wellFormed l -> existsb isIndex l = false ->
  (forall l' k, l <> (l' ++ [Into k])%list) ->
  (addressed n l = Some m <-> resolveSub (Some n) ("#" ++ pointer l) = Ok (Good m)).
Proof. exact resolves_exactly. Qed.
Print Assumptions C39_resolves_partial.

(* nothing there: an error, or a panic where a keyword on the way is missing *)
Theorem C39_missing_partial : forall n l, Forall wellFormed l -> existsb isIndex l = false ->
  (forall l' k, l <> (l' ++ [Into k])%list) -> addressed n l = None ->
  (exists e, resolveSub (Some n) ("#" ++ pointer l) = Ok (Bad e)) \/
  (resolveSub (Some n) ("#" ++ pointer l) = Panic "nil pointer dereference" /\
   exists l1 k l2 d, l = (l1 ++ Into k :: l2)%list /\ addressed n l1 = Some d /\
     ((k = "additionalProperties" /\ sAdditionalProperties d = None) \/ (k = "items" /\ sItems d = None) \/
      (k = "additionalItems" /\ sAdditionalItems d = None) \/ (k = "unevaluatedItems" /\ sUnevaluatedItems d = None))).
Proof. exact resolves_bad. Qed.
Print Assumptions C39_missing_partial.

(* resolution terminates: the fuel of the model, one more than the length of the pointer, suffices *)
Theorem C39_terminates : forall o p, resolveSub o p <> Timeout.
Proof. exact resolveSub_time. Qed.
Print Assumptions C39_terminates.

(* pointers through a list that is not there are refused *)
Theorem C39_no_list_partial : forall n l k i r c, Forall wellFormed (l ++ Nth k i :: r) -> existsb isIndex l = false -> addressed n l = Some c ->
  listed c k = None -> (k = "items" -> sItems c <> None) ->
  exists e, resolveSub (Some n) ("#" ++ pointer (l ++ Nth k i :: r)) = Ok (Bad e).
Proof. exact resolves_no_list. Qed.
Print Assumptions C39_no_list_partial.

(* Every text whatever, pointer or not, that mentions none of the four keywords whose absence is not checked
   and no digit: resolving it in any schema, or in none, does not panic.  Missing from the full statement:
   the texts that mention them, some of which do panic (below). *)
Theorem C39_never_panics_partial : forall o text why,
  (forall before k after, In k ["additionalProperties"; "items"; "additionalItems"; "unevaluatedItems"; "0"; "1"; "2"; "3"; "4"; "5"; "6"; "7"; "8"; "9"] ->
     text <> before ++ k ++ after) ->
  resolveSub o text <> Panic why.
Proof. intros o text why H. apply resolve_calm. exact H. Qed.
Print Assumptions C39_never_panics_partial.

Lemma absent : forall k t, index 0 k t = None -> forall a b, t <> a ++ k ++ b.
Proof.
  intros k t H a b ->. revert H. induction a as [|c a IH]; intros H.
  - cbn [append] in H. destruct k as [|x k]; [destruct b; discriminate H|]. cbn [append index] in H.
    assert (P : prefix (String x k) (String x (k ++ b)) = true) by (apply prefix_correct; cbn [String.length substring]; f_equal; clear; induction k; cbn; [destruct b; reflexivity|f_equal; auto]).
    rewrite P in H. discriminate H.
  - apply IH. cbn [append index] in H. destruct (prefix k (String c (a ++ k ++ b))); [discriminate H|].
    destruct (index 0 k (a ++ k ++ b)); [discriminate H|reflexivity].
Qed.
Example C39_never_panics_case :
  (forall before k after, In k ["additionalProperties"; "items"; "additionalItems"; "unevaluatedItems"; "0"; "1"; "2"; "3"; "4"; "5"; "6"; "7"; "8"; "9"] ->
     "#/allOf/x/$defs/y" <> before ++ k ++ after) /\
  resolveSub (Some emptyNode) "#/allOf/x/$defs/y" = Ok (Bad "no items").
Proof.
  split; [|reflexivity]. intros a k b I. apply absent. repeat (destruct I as [<-|I]; [reflexivity|]). destruct I.
Qed.

Example C39_case :
  let n := set_sDefs (Some [("a", set_sNot (Some (set_sProperties abc emptyNode)) emptyNode)]) emptyNode in
  let l := [Named "$defs" "a"; Into "not"; Named "properties" "b"] in
  Forall wellFormed l /\ existsb isIndex l = false /\ (forall l' k, l <> (l' ++ [Into k])%list) /\
  "#" ++ pointer l = "#/$defs/a/not/properties/b" /\ addressed n l = Some (isConst "2").
Proof.
  cbv zeta. split; [|split; [reflexivity|split; [|split; reflexivity]]].
  - repeat constructor; cbn; try tauto; try discriminate; intuition discriminate.
  - intros l' k E. apply (f_equal (@rev step)) in E. rewrite rev_app_distr in E. discriminate.
Qed.

(* "#/not", "#/additionalProperties", ...: every pointer ending in a single-schema keyword resolves to the
   schema above the addressed one *)
Theorem C39_last_keyword_refuted : forall n l k c, Forall wellFormed (l ++ [Into k]) -> existsb isIndex l = false -> addressed n l = Some c ->
  resolveSub (Some n) ("#" ++ pointer (l ++ [Into k])) = Ok (Good c).
Proof. exact resolves_parent. Qed.
Print Assumptions C39_last_keyword_refuted.

Example C39_last_keyword_case : let n := set_sNot (Some (isConst "x")) emptyNode in
  Forall wellFormed ([] ++ [Into "not"]) /\ addressed n [] = Some n /\ addressed n [Into "not"] = Some (isConst "x") /\
  "#" ++ pointer ([] ++ [Into "not"]) = "#/not".
Proof. cbv zeta. split; [repeat constructor; cbn; tauto|]. repeat (split; [reflexivity|]). reflexivity. Qed.

(* every pointer through a list is refused when the index is there and panics when it is not *)
Theorem C39_index_refuted : forall n l k i r c xs, Forall wellFormed (l ++ Nth k i :: r) -> existsb isIndex l = false -> addressed n l = Some c ->
  listed c k = Some xs -> Z.of_nat i < 2 ^ 63 ->
  resolveSub (Some n) ("#" ++ pointer (l ++ Nth k i :: r)) =
    if (i <? List.length xs)%nat then Ok (Bad "out of bounds") else Panic "index out of range".
Proof. exact resolves_index. Qed.
Print Assumptions C39_index_refuted.

Example C39_index_case : let n := set_sAllOf (Some [isConst "x"; isConst "y"]) emptyNode in
  Forall wellFormed ([] ++ Nth "allOf" 1 :: []) /\ addressed n [Nth "allOf" 1] = Some (isConst "y") /\
  listed n "allOf" = Some [isConst "x"; isConst "y"] /\ "#" ++ pointer [Nth "allOf" 1] = "#/allOf/1".
Proof. cbv zeta. split; [repeat constructor; cbn; tauto|]. repeat (split; [reflexivity|]). reflexivity. Qed.

(* a pointer through a keyword that is not there panics *)
Theorem C39_panic_refuted : resolveSub (Some emptyNode) "#/additionalProperties/properties/a" = Panic "nil pointer dereference".
Proof. reflexivity. Qed.
Print Assumptions C39_panic_refuted.
