(* Specification vocabulary for references inside a document: the part of a generator that a step down a
   schema (SpecRef.v) corresponds to, and the documents for which the two are proved to agree. *)
From Coq Require Import ZArith List String Ascii Bool.
From Verif Require Import Base Schema NodeFacts Util Number Gen PState Parse SpecRef SpecParse.
Import ListNotations.
Open Scope string_scope.

(* the part of a generator that makes the values a step leads to; a generator for a list of types makes
   them with any of its members *)
Inductive part : step -> gen -> gen -> Prop :=
| part_property : forall k c ps pats add cf, In (k, c) ps -> part (Named "properties" k) (GObject ps pats add cf) c
| part_pattern : forall k b c ps pats add cf, In (k, (b, c)) pats -> part (Named "patternProperties" k) (GObject ps pats add cf) c
| part_additional : forall c ps pats cf, part (Into "additionalProperties") (GObject ps pats (Some c) cf) c
| part_prefix : forall i c tu it ad ct un cf, nth_error tu i = Some c -> part (Nth "prefixItems" i) (GArray tu it ad ct un cf) c
| part_items : forall c tu ad ct un cf, part (Into "items") (GArray tu (Some c) ad ct un cf) c
| part_addItems : forall c tu it ct un cf, part (Into "additionalItems") (GArray tu it (Some c) ct un cf) c
| part_contains : forall c tu it ad un cf, part (Into "contains") (GArray tu it ad (Some c) un cf) c
| part_uneval : forall c tu it ad ct cf, part (Into "unevaluatedItems") (GArray tu it ad ct (Some c) cf) c
| part_types : forall st g gs c, In g gs -> part st g c -> part st (GMulti gs) c.
Inductive partAt : gen -> list step -> gen -> Prop :=
| part_here : forall g, partAt g [] g
| part_further : forall g st c p h, part st g c -> partAt c p h -> partAt g (st :: p) h.

(* names that are different and contain no slash *)
Definition clearNames {A} (l : option (list (string * A))) : Prop :=
  NoDup (map fst (get_or l [])) /\ forall k, In k (map fst (get_or l [])) -> ~ In "/"%char (list_ascii_of_string k).

(* A schema that is used as it stands, nested at most d levels deep: references, enumerations and types; no
   combination, negation or condition, no $id, no list of schemas in items, contains only without items. *)
Fixpoint tree (d : nat) (n : schemaNode) : Prop :=
  match d with
  | O => False
  | S d' =>
      sId n = None /\ sConstraints n = None /\
      (sRef n <> None \/
       (sAllOf n = None /\ sAnyOf n = None /\ sOneOf n = None /\ sNot n = None /\ sMergedNot n = [] /\ sIf n = None /\ sMergedIf n = [] /\
        clearNames (sProperties n) /\ clearNames (sPatternProperties n) /\
        (forall t ts, sType n = Some t -> mtMultiple t = Some ts -> NoDup ts) /\
        (forall it, sItems n = Some it -> get_or (itNodes it) [] = [] /\ (sContains n <> None -> itNode it = None)) /\
        (forall a, sAdditionalItems n = Some a -> nofFalse a = true -> nofSchema a = None) /\
        (forall st c, down n st = Some c -> tree d' c)))
  end.
(* h is the generator made from the node m, used as it stands, which stands at this path of this document,
   with its references read as this document's, at this depth and within the maximum depth; null stands in
   for a node that is refused, and what was reported until then is among the errors reported *)
Definition madeFrom (E : penv) (errs : list (string * string * string)) (depth : Z) (m : schemaNode) (doc path : string) (h : gen) : Prop :=
  exists fuel s r s', parseNode E fuel m s = Ok (r, s') /\ pParsing s = doc /\ scope s = doc /\ pPath s = path /\ pDepth s = depth /\ (depth < pxMaxDepth E)%Z /\
    h = match r with Good g => g | Bad _ => GNull end /\ (exists d, tree d m) /\ incl (pErrs s') errs.
(* a document: its schema and its definitions *)
Definition treeDocument (d : nat) (n : schemaNode) : Prop :=
  tree d n /\ clearNames (sDefs n) /\ clearNames (sDefinitions n) /\
  forall k c, assoc k (get_or (sDefs n) []) = Some c \/ assoc k (get_or (sDefinitions n) []) = Some c -> tree d c.

(* The table of references agrees with the part of the document n that starts here: wherever the generator
   g made from that part has a part h, the table holds h for the path of the schema h was made from. *)
Definition agrees (E : penv) (errs : list (string * string * string)) (refs : list (string * list (string * gen))) (doc : string) (n : schemaNode) (start : list step) (g : gen) : Prop :=
  forall p h, partAt g p h -> exists m, addressed n (start ++ p) = Some m /\
    target refs doc ("#" ++ pointer (start ++ p)) = Some h /\ madeFrom E errs (Z.of_nat (List.length p)) m doc ("#" ++ pointer (start ++ p)) h.
