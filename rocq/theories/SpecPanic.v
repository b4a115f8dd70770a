(* Specification vocabulary for the schemas whose generators cannot panic: moderate numbers and no empty
   list of types, at every depth. *)
From Coq Require Import ZArith Reals List String Bool.
From Flocq Require Import Core BinarySingleNaN.
From Verif Require Import Base Float64 Json Schema NodeFacts Gen.
Import ListNotations.
Open Scope Z_scope.

(* one of the two is an integer multiple of the other *)
Definition related (a b : f64) : Prop := exists k : Z, B2R a = (IZR k * B2R b)%R \/ B2R b = (IZR k * B2R a)%R.

(* multipleOf values between 1/128 and 2^40 of which any two are related *)
Definition chain (ms : f64 -> Prop) : Prop :=
  (forall m, ms m -> is_finite m = true /\ (/ 128 <= B2R m <= IZR (2 ^ 40))%R) /\
  (forall a b, ms a -> ms b -> related a b).

(* the keywords of one schema: a list of types is not empty, sizes are within 2^60, bounds of numbers
   within 2^54, multipleOf is one of ms *)
Definition tameNode (ms : f64 -> Prop) (n : schemaNode) : Prop :=
  (forall t, sType n = Some t -> mtMultiple t <> Some []) /\
  (forall k, In (Some k) [sMinItems n; sMaxItems n; sMinContains n; sMaxContains n; sMinProperties n; sMaxProperties n] ->
     - 2 ^ 60 <= k <= 2 ^ 60) /\
  (forall b, In (Some b) [sMinimum n; sMaximum n; sExclusiveMinimum n; sExclusiveMaximum n] ->
     is_finite b = true /\ (Rabs (B2R b) <= IZR (2 ^ 54))%R) /\
  (forall m, sMultipleOf n = Some m -> ms m).

(* the same for a schema and everything below it *)
Definition tame (ms : f64 -> Prop) (n : schemaNode) : Prop := forall m, within n m -> tameNode ms m.

(* no list of alternatives in a generator has 2^63 elements: no Go slice does *)
Fixpoint representable (g : gen) : bool :=
  let opt o := match o with Some g => representable g | None => true end in
  match g with
  | GArray t i a c u _ => forallb representable t && opt i && opt a && opt c && opt u
  | GObject ps pats add _ => forallb (fun kg => representable (snd kg)) ps && forallb (fun kg => representable (snd (snd kg))) pats && opt add
  | GMulti gs | GComb gs => (Z.of_nat (List.length gs) <? 2 ^ 63) && forallb representable gs
  | GAllOf g => representable g
  | GConstrained g cs =>
      representable g &&
      forallb (fun c => match c with CIf l => forallb (fun k => opt (fst (snd k)) && opt (snd (snd k))) l | _ => true end) cs
  | _ => true
  end.
