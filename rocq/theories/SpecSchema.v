(* Specification: which JSON values are valid against a schema node.  It follows the text of JSON Schema
   keyword by keyword and uses none of the program's algorithms; only the record of keywords
   (Schema.v), JSON values (Json.v) and the numeric keywords over the reals (SpecNumber.v).
   Strings are measured in bytes, as the program does.  A $ref is one keyword among the others; what the
   references accept is a parameter (refers; SpecRefValid.v says which one is right for a document).  Not
   covered: $id, $defs, unevaluatedItems,
   dependentRequired, dependentSchemas, length and the program's internal fields. *)
From Coq Require Import ZArith Reals List String Bool.
From Flocq Require Import Core BinarySingleNaN.
From Verif Require Import Base Float64 Json Schema SpecNumber.
Import ListNotations.
Open Scope string_scope.
Open Scope Z_scope.

(* Two JSON values are equal: numbers by value, objects as finite maps. *)
Inductive jeq : json -> json -> Prop :=
| jeq_null : jeq JNull JNull
| jeq_bool : forall b, jeq (JBool b) (JBool b)
| jeq_num : forall a b x, numberValue a x -> numberValue b x -> jeq a b
| jeq_str : forall s, jeq (JStr s) (JStr s)
| jeq_arr : forall l l', Forall2 jeq l l' -> jeq (JArr l) (JArr l')
| jeq_obj : forall m m', (forall k, In k (keys m) <-> In k (keys m')) ->
    (forall k a b, assoc k m = Some a -> assoc k m' = Some b -> jeq a b) -> jeq (JObj m) (JObj m').

(* v is of the named type; names other than the seven of JSON Schema are of no value *)
Definition hasType (t : string) (v : json) : Prop :=
  (t = "null" /\ v = JNull) \/ (t = "boolean" /\ exists b, v = JBool b) \/
  (t = "number" /\ exists x, numberValue v x) \/ (t = "integer" /\ exists x, numberValue v x /\ isInteger x) \/
  (t = "string" /\ exists s, v = JStr s) \/ (t = "array" /\ exists l, v = JArr l) \/ (t = "object" /\ exists m, v = JObj m).

(* "type" given as a string, as a list, or absent *)
Definition okType (t : option multipleType) (v : json) : Prop :=
  match t with
  | None => True
  | Some t => match mtMultiple t with
              | Some l => exists x, In x l /\ hasType x v
              | None => mtSingle t <> "" -> hasType (mtSingle t) v
              end
  end.

(* the type names a "type" keyword allows; a schema without it allows all of them *)
Definition allTypes : list string := ["object"; "array"; "number"; "integer"; "string"; "boolean"; "null"].
Definition typeNames (t : option multipleType) : list string :=
  match t with None => allTypes | Some t => match mtMultiple t with Some l => l | None => [mtSingle t] end end.
(* one name, or a non-empty list of names; no empty names *)
Definition properType (t : option multipleType) : Prop :=
  match t with
  | None => True
  | Some t => match mtMultiple t with Some l => mtSingle t = "" /\ l <> [] /\ ~ In "" l | None => mtSingle t <> "" end
  end.

Definition okEnum (e : option (list json)) (v : json) : Prop := forall l, e = Some l -> exists x, In x l /\ jeq x v.
Definition okConst (c : option json) (v : json) : Prop := forall x, c = Some x -> jeq x v.

(* lo <= z <= hi where present *)
Definition okRange (lo hi : option Z) (z : Z) : Prop :=
  (forall a, lo = Some a -> a <= z) /\ (forall b, hi = Some b -> z <= b).

(* the four bounds of a number are finite, as in every decoded schema *)
Definition finiteBounds (n : schemaNode) : Prop :=
  let f o := match o with Some x => is_finite (x : f64) = true | None => True end in
  f (sMinimum n) /\ f (sMaximum n) /\ f (sExclusiveMinimum n) /\ f (sExclusiveMaximum n).

(* all bounds of a node hold for a string length, an array length, a number of matches of contains, a
   number of properties and a number *)
Definition boundsHold (n : schemaNode) (len items contains props : Z) (x : R) : Prop :=
  okRange (sMinLength n) (sMaxLength n) len /\ okRange (sMinItems n) (sMaxItems n) items /\
  okRange (sMinContains n) (sMaxContains n) contains /\ okRange (sMinProperties n) (sMaxProperties n) props /\ okBounds n x.

(* enum and const allow v; values are compared by their JSON text *)
Definition listed (n : schemaNode) (v : json) : Prop :=
  (forall l, sEnum n = Some l -> exists x, In x l /\ marshal x = marshal v) /\
  (forall x, sConst n = Some x -> marshal x = marshal v).

(* no two different positions of the list hold equal values *)
Definition distinct (l : list json) : Prop :=
  forall i j a b, nth_error l i = Some a -> nth_error l j = Some b -> i <> j -> ~ jeq a b.

(* at least / at most k elements have the property *)
Inductive atLeast (Q : json -> Prop) : Z -> list json -> Prop :=
| al_done : forall k l, k <= 0 -> atLeast Q k l
| al_take : forall k x l, Q x -> atLeast Q (k - 1) l -> atLeast Q k (x :: l)
| al_skip : forall k x l, atLeast Q k l -> atLeast Q k (x :: l).

(* predicates over the nodes of a list, of a map, and position by position *)
Definition every {A} (f : A -> Prop) : list A -> Prop :=
  fix go l := match l with [] => True | x :: r => f x /\ go r end.
Definition some {A} (f : A -> Prop) : list A -> Prop :=
  fix go l := match l with [] => False | x :: r => f x \/ go r end.
Definition exactlyOne {A} (f : A -> Prop) : list A -> Prop :=
  fix go l := match l with [] => False | x :: r => (f x /\ every (fun y => ~ f y) r) \/ (~ f x /\ go r) end.
Definition everyMember {A} (f : string -> A -> Prop) : list (string * A) -> Prop :=
  fix go l := match l with [] => True | (k, x) :: r => f k x /\ go r end.
Definition positions {A} (f : A -> json -> Prop) : list A -> list json -> Prop :=
  fix go l vs := match l, vs with a :: r, v :: t => f a v /\ go r t | _, _ => True end.
Definition present {A} (f : A -> Prop) (o : option A) : Prop := match o with Some x => f x | None => True end.

(* c is n itself or one of the branches of its allOf, at any depth *)
Inductive conjunct : schemaNode -> schemaNode -> Prop :=
| cj_self : forall n, conjunct n n
| cj_branch : forall c b n l, sAllOf n = Some l -> In b l -> conjunct c b -> conjunct c n.

Section Valid.
(* pattern p matches string s; string s has format f *)
Variable matches : string -> string -> Prop.
Variable formatted : string -> string -> Prop.
(* value v is accepted by what the reference r names *)
Variable refers : string -> json -> Prop.

Definition okString (n : schemaNode) (v : json) : Prop := forall s, v = JStr s ->
  okRange (sMinLength n) (sMaxLength n) (Z.of_nat (String.length s)) /\
  (forall p, sPattern n = Some p -> matches p s) /\ (forall f, sFormat n = Some f -> formatted f s).

Definition okNumber (n : schemaNode) (v : json) : Prop := forall x, numberValue v x -> okBounds n x /\ okMultipleOf n x.

Definition okArray (n : schemaNode) (v : json) : Prop := forall l, v = JArr l ->
  okRange (sMinItems n) (sMaxItems n) (Z.of_nat (List.length l)) /\
  (sUniqueItems n = Some true -> distinct l).

Definition okObject (n : schemaNode) (v : json) : Prop := forall m, v = JObj m ->
  okRange (sMinProperties n) (sMaxProperties n) (Z.of_nat (List.length m)) /\
  (forall l k, sRequired n = Some l -> In k l -> In k (keys m)).

(* the keywords without sub-schemas *)
Definition okFlat (n : schemaNode) (v : json) : Prop :=
  okType (sType n) v /\ okEnum (sEnum n) v /\ okConst (sConst n) v /\
  okString n v /\ okNumber n v /\ okArray n v /\ okObject n v.

(* the positional part of an array schema: prefixItems, or the array form of items *)
Definition tupleLength {A} (prefix : option (list A)) (items : option (itemsData A)) : nat :=
  match prefix with
  | Some l => List.length l
  | None => match items with Some d => List.length (get_or (itNodes d) []) | None => O end
  end.

Fixpoint valid (n : schemaNode) {struct n} : json -> Prop :=
  match n with
  | mkNode _ _ props addp patp _ _ _ _ _ _ _ _ _ _ _ _ items _ _ contains minc maxc prefix addi _ _ _ _ nt allOf anyOf oneOf ref _ _ _ cif cthen celse _ _ _ _ _ =>
    fun v =>
    okFlat n v /\
    (* objects *)
    (forall m, v = JObj m ->
       present (everyMember (fun k c => forall x, assoc k m = Some x -> valid c x)) props /\
       present (everyMember (fun p c => forall k x, assoc k m = Some x -> matches p k -> valid c x)) patp /\
       present (fun d => forall k x, assoc k m = Some x -> ~ In k (keys (get_or props [])) ->
                  (forall p, In p (keys (get_or patp [])) -> ~ matches p k) ->
                  nofFalse d = false /\ present (fun c => valid c x) (nofSchema d)) addp) /\
    (* arrays *)
    (forall l, v = JArr l ->
       present (fun ns => positions valid ns l) prefix /\
       present (fun d =>
         (prefix = None -> present (fun ns => positions valid ns l) (itNodes d)) /\
         (itDisallow d = true -> skipn (tupleLength prefix items) l = []) /\
         present (fun c => forall x, In x (skipn (tupleLength prefix items) l) -> valid c x) (itNode d)) items /\
       present (fun d => present (fun it => itNode it = None \/ get_or (itNodes it) [] <> []) items ->
         (nofFalse d = true -> skipn (tupleLength prefix items) l = []) /\
         present (fun c => forall x, In x (skipn (tupleLength prefix items) l) -> valid c x) (nofSchema d)) addi /\
       present (fun c => atLeast (valid c) (get_or minc 1) l /\
                         forall k, maxc = Some k -> ~ atLeast (valid c) (k + 1) l) contains) /\
    (* combinations *)
    present (every (fun c => valid c v)) allOf /\
    present (some (fun c => valid c v)) anyOf /\
    present (exactlyOne (fun c => valid c v)) oneOf /\
    present (fun c => ~ valid c v) nt /\
    present (fun c => (valid c v -> present (fun t => valid t v) cthen) /\ (~ valid c v -> present (fun t => valid t v) celse)) cif /\
    (* reference *)
    present (fun r => refers r v) ref
  end.
End Valid.
