(* Specification vocabulary for the schemas whose parsing cannot panic: references by plain pointers, and
   negated schemas without references and without uniqueItems. *)
From Coq Require Import ZArith List String Ascii Bool.
From Verif Require Import Base Float64 Json Schema NodeFacts Codec.
Import ListNotations.
Open Scope string_scope.

(* the parts of a text between slashes *)
Fixpoint segments (p : string) : list string :=
  match p with
  | EmptyString => [""]
  | String c r =>
      if Ascii.eqb c "/" then "" :: segments r
      else match segments r with h :: t => String c h :: t | [] => [String c ""] end
  end.
(* a reference from its first '#' on *)
Fixpoint pointerOf (r : string) : string :=
  match r with EmptyString => "" | String c r' => if Ascii.eqb c "#" then r else pointerOf r' end.
(* the keywords a pointer had better not pass through *)
Definition risky : list string :=
  ["additionalProperties"; "items"; "prefixItems"; "additionalItems"; "unevaluatedItems"; "allOf"; "anyOf"; "oneOf"].
(* "#", or "#/" and names of which none is risky: "#/definitions/a/properties/b" *)
Definition plainPointer (p : string) : Prop :=
  (p = "#" \/ exists q, p = "#/" ++ q) /\ forall w, In w risky -> ~ In w (segments p).
Definition plainRef (r : string) : Prop := pointerOf r = "" \/ plainPointer (pointerOf r).

(* no reference and no uniqueItems in a schema or below it *)
Definition clean (x : schemaNode) : Prop := forall m, within x m -> sRef m = None /\ sUniqueItems m = None.
(* plain references, and clean schemas under "not", in a schema and everything below it *)
Definition calmNode (n : schemaNode) : Prop :=
  (forall r, sRef n = Some r -> plainRef r) /\ (forall x, In x (onode (sNot n)) \/ In x (sMergedNot n) -> clean x).
Definition calm (n : schemaNode) : Prop := forall m, within n m -> calmNode m.

(* the object [m] stands at the pointer [p] in the text [j]: objects in objects and in arrays of objects *)
Inductive objectAt : json -> string -> string -> list (string * json) -> Prop :=
| at_here : forall p m, objectAt (JObj m) p p m
| at_member : forall l k v p q m, In (k, v) l -> objectAt v (p ++ "/" ++ k) q m -> objectAt (JObj l) p q m
| at_element : forall l k xs i v p q m, In (k, JArr xs) l -> nth_error xs i = Some v ->
    objectAt v (p ++ "/" ++ k ++ "/" ++ itoa (Z.of_nat i)) q m -> objectAt (JObj l) p q m.
(* every schema below the root that has an "$id" of its own is reached by a plain pointer *)
Definition plainIds (n : schemaNode) : Prop :=
  forall p m i, objectAt (encodeNode n) "" p m -> assoc "$id" m = Some (JStr i) -> p = "" \/ plainPointer ("#" ++ p).
