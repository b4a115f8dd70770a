(* The words of the statements about fetching. *)
From Coq Require Import List String Ascii Bool.
From Verif Require Import Base Number PState Parse Fetch.
Import ListNotations.
Open Scope string_scope.

(* a url text meets the policy: https unless insecure access is allowed, and a listed host if there is a
   list *)
Definition httpPermits (W : world) (o : httpOpts) (text : string) : Prop :=
  exists v, wParse W text = Some v /\
    (hInsecure o = true \/ wScheme W v = "https") /\
    (hHosts o = [] \/ In (wHost W v) (hHosts o)).

(* a path is at or below a directory: the elements of the directory are the first elements of the path *)
Definition below (dir path : string) : Prop := exists rest, elements path = (elements dir ++ rest)%list.

(* Urls that exist: parsed ones and those resolved against another *)
Inductive isUrl (W : world) : wUrl W -> Prop :=
| isParsed : forall t v, wParse W t = Some v -> isUrl W v
| isResolved : forall b v, isUrl W b -> isUrl W v -> isUrl W (wResolve W b v).

(* What is taken from net/url: the text of a url, with or without what follows a '#', reads back with the
   same scheme and host; a text starting with "file://" has the scheme "file"; resolving keeps a scheme that
   is there and takes the base's otherwise. *)
Record urlLaws (W : world) : Prop := mkUrlLaws {
  readBack : forall v t, isUrl W v -> t = wString W v \/ t = refDoc (wString W v) -> t <> "" ->
    exists v', wParse W t = Some v' /\ wScheme W v' = wScheme W v /\ wHost W v' = wHost W v;
  fileScheme : forall t v, wParse W ("file://" ++ t) = Some v -> wScheme W v = "file";
  resolveScheme : forall b v, wScheme W (wResolve W b v) = if String.eqb (wScheme W v) "" then wScheme W b else wScheme W v }.

(* The rounds of the queue from state s to state s': the ids taken from it in order, each with whether its
   document could be fetched. *)
Inductive rounds (E : penv) (fuel : nat) : pst -> list (string * bool) -> pst -> Prop :=
| noMore : forall s, pQueue s = [] -> rounds E fuel s [] s
| oneMore : forall s id rest d s0 s1 l s2,
    pQueue s = id :: rest ->
    resolveDocument E id (withQueue rest (withParsing id (withResolving id s))) = Ok (d, s0) ->
    parseNext E fuel id rest s = Ok (tt, s1) ->
    rounds E fuel s1 l s2 ->
    rounds E fuel s ((id, match d with Good _ => true | Bad _ => false end) :: l) s2.

(* A document is parsed or waits in the queue to be parsed.  A parsed document is stored under its id, or
   under the part of its id before '#'. *)
Definition parsedDoc (s : pst) (d : string) : Prop := assoc d (pDone s) = Some true.
Definition waits (s : pst) (d : string) : Prop := In d (pQueue s) \/ parsedDoc s d.
Definition parsedStored (s : pst) : Prop :=
  forall d, parsedDoc s d -> (exists n, assoc d (pDocs s) = Some n) \/ refDoc d <> d.
(* t is reached from s by some rounds of the queue, which need not be empty yet *)
Inductive someRounds (E : penv) (fuel : nat) : pst -> pst -> Prop :=
| noRound : forall s, someRounds E fuel s s
| oneRound : forall s id rest s1 t, pQueue s = id :: rest -> parseNext E fuel id rest s = Ok (tt, s1) ->
    someRounds E fuel s1 t -> someRounds E fuel s t.
