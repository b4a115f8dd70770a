(* Which size keywords go together.  A keyword that is absent, or 0 where said so, does not restrict. *)
From Coq Require Import ZArith List String Bool.
From Verif Require Import Base Float64 Json Schema Gen PState Merge Parse SpecRun.
Import ListNotations.
Open Scope string_scope.
Open Scope Z_scope.

Definition noDependents (n : schemaNode) : Prop := sDependentRequired n = [] /\ sDependentSchemas n = [].

(* neither bound is negative, and the lower one is at most the upper one unless that is 0 *)
Definition fits (lo hi : option Z) : Prop :=
  0 <= get_or lo 0 /\ 0 <= get_or hi 0 /\ (get_or hi 0 = 0 \/ get_or lo 0 <= get_or hi 0).

(* lengths that fit, at most one of pattern and format and that without lengths, a pattern the library understands *)
Definition stringFits (PE : penv) (n : schemaNode) : Prop :=
  fits (sMinLength n) (sMaxLength n) /\ (sPattern n = None \/ sFormat n = None) /\
  (sPattern n = None /\ sFormat n = None \/ sMinLength n = None /\ sMaxLength n = None) /\
  (forall p, sPattern n = Some p -> pxRegexOk PE p = true).

(* a length or number of members that the two keywords, which are not negative, allow *)
Definition meetsSize (lo hi : option Z) (k : Z) : Prop :=
  0 <= k /\ (forall a, lo = Some a -> 0 <= a <= k) /\ (forall b, hi = Some b -> k <= b).

(* sizes that are not negative; maxProperties, if given, leaves room for minProperties and for the required names;
   where only declared names are allowed there are enough of them *)
Definition objectFits (n : schemaNode) : Prop :=
  (0 <= get_or (sMinProperties n) 0 /\ 0 <= get_or (sMaxProperties n) 0) /\
  (forall b, sMaxProperties n = Some b -> get_or (sMinProperties n) 0 <= b /\ Z.of_nat (List.length (get_or (sRequired n) [])) <= b) /\
  (addlFalse n = true -> sPatternProperties n = None -> get_or (sMinProperties n) 0 <= Z.of_nat (List.length (get_or (sProperties n) []))).

(* two bounds in order; 0 stands for an absent one *)
Definition ordered (a b : Z) : Prop := a = 0 \/ b = 0 \/ 0 < a <= b.
(* minContains is taken as 1 beside contains *)
Definition arrayFits (n : schemaNode) : Prop :=
  ordered (get_or (sMinItems n) 0) (get_or (sMaxItems n) 0) /\
  ordered (minContainsOf n) (get_or (sMaxContains n) 0) /\
  ordered (minContainsOf n) (get_or (sMinItems n) 0) /\
  ordered (prefixLength n + minContainsOf n) (get_or (sMaxItems n) 0) /\
  (forall b, sMaxItems n = Some b -> prefixLength n <= b).
(* every schema for members of the array is itself accepted; contains after it was merged with items *)
Definition memberSchemas (PE : penv) (n : schemaNode) : Prop :=
  (forall c, itemsNode n = Some c \/ addlItemsNode n = Some c \/ unevalNode n = Some c \/ In c (positional n) -> exists g, accepted PE c g) /\
  (forall k, sContains n = Some k -> exists c g, containsFrom PE k n c /\ accepted PE c g).
(* the schemas of the members of an array *)
Definition itemSchema (PE : penv) (n c : schemaNode) : Prop :=
  itemsNode n = Some c \/ addlItemsNode n = Some c \/ unevalNode n = Some c \/ In c (positional n) \/
  exists k, sContains n = Some k /\ containsFrom PE k n c.
