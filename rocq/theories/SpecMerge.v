(* Specification: schemas whose keywords merging can combine without losing any.  Independent of the
   merging algorithm: it only says which keywords appear together in the branches.  Each clause excludes
   a combination for which P_Merge.v shows (theorems C32_..._refuted) that a branch's keyword is lost. *)
From Coq Require Import ZArith Reals List String Bool.
From Flocq Require Import Core BinarySingleNaN.
From Verif Require Import Base Float64 Json Schema SpecNumber SpecSchema.
Import ListNotations.
Open Scope string_scope.
Open Scope Z_scope.

Definition concatMap {A B} (f : A -> list B) : list A -> list B :=
  fix go l := match l with [] => [] | x :: r => (f x ++ go r)%list end.

(* the schema without its allOf, and the same of every branch of it, at any depth *)
Fixpoint conjuncts (n : schemaNode) : list schemaNode :=
  set_sAllOf None n ::
  match n with
  | mkNode _ _ _ _ _ _ _ _ _ _ _ _ _ _ _ _ _ _ _ _ _ _ _ _ _ _ _ _ _ _ allOf _ _ _ _ _ _ _ _ _ _ _ _ _ _ =>
    match allOf with Some l => concatMap conjuncts l | None => [] end
  end.

(* keywords of one schema that merging handles: no reference, no conditional, finite numbers, one of enum
   and const, a plain items, no maxContains *)
Record single (n : schemaNode) : Prop := mkSingle {
  siRef : sRef n = None;
  siBounds : finiteBounds n;
  siType : properType (sType n);
  siOne : sEnum n = None \/ sConst n = None;
  siEnum : forall l x, sEnum n = Some l -> In x l -> marshal x <> None;
  siConst : forall x, sConst n = Some x -> marshal x <> None;
  siMultiple : forall q, sMultipleOf n = Some q -> is_finite q = true /\ B2R q <> 0%R;
  siItems : forall d, sItems n = Some d -> itNode d <> None /\ itNodes d = None /\ itDisallow d = false;
  siAdditionalItems : sAdditionalItems n = None;
  siMinContains : forall k, sMinContains n = Some k -> 1 <= k;
  siMaxContains : sMaxContains n = None;
  siAnyOf : sAnyOf n <> Some [];
  siOneOf : sOneOf n <> Some [];
  siIf : sIf n = None /\ sMergedIf n = [];
  siNot : sMergedNot n = [];
  siProperties : NoDup (keys (get_or (sProperties n) []));
  siPatterns : NoDup (keys (get_or (sPatternProperties n) [])) }.

Definition sameIfBoth {A} (x y : option A) : Prop := forall a b, x = Some a -> y = Some b -> a = b.
Definition notBoth {A} (x y : option A) : Prop := x = None \/ y = None.
(* the schema with additionalProperties knows every property the other one names; the schema with items
   has at least as many positions as the other one *)
Definition covers (a b : schemaNode) : Prop :=
  (sAdditionalProperties a <> None ->
     incl (keys (get_or (sProperties b) [])) (keys (get_or (sProperties a) [])) /\
     incl (keys (get_or (sPatternProperties b) [])) (keys (get_or (sPatternProperties a) []))) /\
  (sItems a <> None -> (List.length (get_or (sPrefixItems b) []) <= List.length (get_or (sPrefixItems a) []))%nat).

(* two schemas that do not clash *)
Record agree (a b : schemaNode) : Prop := mkAgree {
  agType : sameIfBoth (sType a) (sType b);
  agPattern : sameIfBoth (sPattern a) (sPattern b);
  agFormat : sameIfBoth (sFormat a) (sFormat b);
  agUnique : sameIfBoth (sUniqueItems a) (sUniqueItems b);
  agMultiple : notBoth (sMultipleOf a) (sMultipleOf b);
  agAnyOf : notBoth (sAnyOf a) (sAnyOf b);
  agOneOf : notBoth (sOneOf a) (sOneOf b);
  agNot : notBoth (sNot a) (sNot b);
  agLeft : covers a b;
  agRight : covers b a }.

(* the sub-schemas a schema gives to a property, a pattern, a position, the other items, contains, and the
   other properties *)
Definition ofOption {A} (o : option A) : list A := match o with Some x => [x] | None => [] end.
Inductive place := AtProperty (k : string) | AtPattern (p : string) | AtPosition (i : nat) | AtItems | AtContains | AtAdditional.
Definition subAt (w : place) (n : schemaNode) : list schemaNode :=
  match w with
  | AtProperty k => ofOption (assoc k (get_or (sProperties n) []))
  | AtPattern p => ofOption (assoc p (get_or (sPatternProperties n) []))
  | AtPosition i => ofOption (nth_error (get_or (sPrefixItems n) []) i)
  | AtItems => match sItems n with Some d => ofOption (itNode d) | None => [] end
  | AtContains => ofOption (sContains n)
  | AtAdditional => match sAdditionalProperties n with Some d => ofOption (nofSchema d) | None => [] end
  end.

(* schemas without allOf that can be merged, to depth d: each can, every two agree, and the sub-schemas
   that several of them give to the same place can be merged too *)
Fixpoint fit (d : nat) (l : list schemaNode) : Prop :=
  match d with
  | O => False
  | S d' =>
      (forall n, In n l -> single n) /\ ForallOrdPairs agree l /\
      forall w, match concatMap (subAt w) l with
                | [] | [_] => True
                | subs => fit d' (concatMap conjuncts subs)
                end
  end.

(* schemas that can be merged *)
Definition canMerge (nodes : list schemaNode) : Prop := exists d, fit d (concatMap conjuncts nodes).

(* a positive number with at most k decimal places *)
Definition shortDecimal (k : nat) (a : f64) : Prop :=
  is_finite a = true /\ (0 < B2R a)%R /\ exists u, (B2R a * IZR (10 ^ Z.of_nat k))%R = IZR u.
(* the product of the multipleOf values of some nodes, each times 10^k *)
Fixpoint scaledProduct (k : nat) (nodes : list schemaNode) : R :=
  match nodes with
  | [] => 1%R
  | n :: r => match sMultipleOf n with Some a => (B2R a * IZR (10 ^ Z.of_nat k) * scaledProduct k r)%R | None => scaledProduct k r end
  end.
