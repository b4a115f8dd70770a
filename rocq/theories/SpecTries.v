(* Vocabulary of the property about repeated attempts: candidates are made one after another, each is
   tried, the first one that passes is the value; a failure text only stands for as many refused
   candidates as there are attempts. *)
From Coq Require Import ZArith List String Bool Permutation.
From Verif Require Import Base Float64 Json Schema Util Options Gen GenInv PState Merge NotMerge Parse SpecRun.
Import ListNotations.
Open Scope string_scope.
Open Scope Z_scope.

(* tries candidate outcome failure k st w st': from st, at most k candidates are tried, ending with w in st'.
   candidate a v b: v is made from a to b.
   outcome v r b c: trying v, from b to c, leads to the value r, or to None if v is refused. *)
Inductive tries (candidate : gst -> json -> gst -> Prop) (outcome : json -> option json -> gst -> gst -> Prop) (failure : string)
  : nat -> gst -> json -> gst -> Prop :=
| tries_done : forall k st a v b w st', after st a -> candidate a v b -> after a b -> outcome v (Some w) b st' ->
    tries candidate outcome failure (S k) st w st'
| tries_next : forall k st a v b c w st', after st a -> candidate a v b -> after a b -> outcome v None b c ->
    tries candidate outcome failure k c w st' -> tries candidate outcome failure (S k) st w st'
| tries_failed : forall st st', after st st' -> tries candidate outcome failure 0 st (JStr failure) st'.

(* k is the number of attempts granted, at some moment between st and st', to a limit of base *)
Definition granted (GE : env) (base : Z) (st st' : gst) (k : nat) : Prop :=
  exists cx, gCx st <= cx <= gCx st' /\ Z.of_nat k = scaledRetryBudget (eOpts GE) cx base.

(* v itself is the value if it may be kept, and is dropped if it may be refused *)
Definition judged (keep refuse : json -> Prop) (v : json) (r : option json) (b c : gst) : Prop :=
  after b c /\ match r with Some w => w = v /\ keep v | None => refuse v end.

(* v has something the negated schema x asks for: its pattern, its format, one of its values, one of the
   properties it requires *)
Definition asksFor (GE : env) (x : schemaNode) (v : json) : Prop :=
  (exists p t, sPattern x = Some p /\ v = JStr t /\ eMatch GE p t = true) \/
  (exists f, sFormat x = Some f /\ eIsFormat GE f v = true) \/
  (exists w, (sConst x = Some w \/ exists l, sEnum x = Some l /\ In w l) /\ marshal v = marshal w) \/
  (exists k m, In k (get_or (sRequired x) []) /\ v = JObj m /\ assoc k m <> None).

(* m is what is left of the node n when the schema x is taken away *)
Definition remainder (PE : penv) (n x m : schemaNode) : Prop :=
  exists f x1 n1 c ta tb tc td te, merge PE f [emptyNode; x] ta = Ok (x1, tb) /\
    merge PE f [set_sNot None (set_sMergedNot [] n)] tc = Ok (n1, td) /\ notMerge PE f n1 x1 td = Ok ((m, c), te).

(* a candidate for a condition: its branch is generated instead, if there is one, and has to agree with it *)
Definition byCondition (GE : env) (c : schemaNode) (th el : option gen) (v : json) (r : option json) (a b : gst) : Prop :=
  after a b /\
  match (if eValid GE c v then th else el) with
  | None => r = Some v
  | Some g => exists w, madeBy GE g w a b /\ r = if Bool.eqb (eValid GE c w) (eValid GE c v) then Some w else None
  end.

(* the same for several schemas, taken away one after another *)
Inductive takenAway (PE : penv) (f : nat) : schemaNode -> list schemaNode -> schemaNode -> Prop :=
| taken_none : forall n, takenAway PE f n [] n
| taken_one : forall n x r m c s s' m', notMerge PE f n x s = Ok ((m, c), s') -> takenAway PE f m r m' -> takenAway PE f n (x :: r) m'.
Definition remainders (PE : penv) (n : schemaNode) (xs : list schemaNode) (m : schemaNode) : Prop :=
  exists f xs1 n1 tc td, Forall2 (fun x x1 => exists ta tb, merge PE f [emptyNode; x] ta = Ok (x1, tb)) xs xs1 /\
    merge PE f [set_sNot None (set_sMergedNot [] n)] tc = Ok (n1, td) /\ takenAway PE f n1 xs1 m.

(* a candidate for several conditions: it goes through them one after another, each may put another value in its place *)
Inductive throughAll (GE : env) : list (schemaNode * (option gen * option gen)) -> json -> option json -> gst -> gst -> Prop :=
| through_end : forall v a b, after a b -> throughAll GE [] v (Some v) a b
| through_refused : forall c th el r v a b, byCondition GE c th el v None a b -> throughAll GE ((c, (th, el)) :: r) v None a b
| through_next : forall c th el r v w x a b d, byCondition GE c th el v (Some w) a b -> throughAll GE r w x b d -> throughAll GE ((c, (th, el)) :: r) v x a d.
(* the order is any *)
Definition byConditions (GE : env) (cs : list (schemaNode * (option gen * option gen))) (v : json) (r : option json) (a b : gst) : Prop :=
  exists order, Permutation order cs /\ throughAll GE order v r a b.
(* the conditions of a node: those collected by merging, then its own *)
Definition conditionsOf (n : schemaNode) : list (option schemaNode * (option schemaNode * option schemaNode)) :=
  (map (fun i => (ifIf i, (ifThen i, ifElse i))) (sMergedIf n) ++ match sIf n with Some c => [(Some c, (sThen n, sElse n))] | None => [] end)%list.
(* what was made of a condition of a node whose rest is base *)
Definition conditionMade (PE : penv) (base : schemaNode) (i : option schemaNode * (option schemaNode * option schemaNode)) (k : schemaNode * (option gen * option gen)) : Prop :=
  exists c t field, fst i = Some c /\ compiledAs PE t c field (fst k) /\
    ifBranch PE base (fst (snd i)) (fst (snd k)) /\ ifBranch PE base (snd (snd i)) (snd (snd k)).
