(* C46: the formats that also ask the library *)
From Coq Require Import ZArith List String Ascii Bool Lia.
From Verif Require Import Base Json Parse Formats SpecFormats FormatFacts FormatNames FormatMail.
Import ListNotations.
Open Scope string_scope.
Open Scope Z_scope.

(* mail addresses: at most 254 bytes, at most 64 before the last at-sign, then an address in brackets or a host name in
   an address that net/mail accepts.  The host names and dotted quads are those of the formats hostname and ipv4 *)
Theorem C46_email_partial : forall L s,
  (validFormat L "email" (JStr s) = true <->
   mailbox (fun d => validFormat L "hostname" (JStr d) = true) (fun a => validFormat L "ipv4" (JStr a) = true)
     (fun a => has ":" a /\ nlIP L a = true) (fun a => nlAddress L a = true) s) /\
  (mailbox hostname ipv4 (fun a => has ":" a /\ nlIP L a = true) (fun a => nlAddress L a = true) s -> validFormat L "email" (JStr s) = true).
Proof.
  intros L s. assert (E : validFormat L "email" (JStr s) = isEmail L s) by reflexivity. rewrite E, email_iff. clear E.
  assert (M : forall (h1 a1 h2 a2 : lang), (forall d, h1 d -> h2 d) -> (forall d, a1 d -> a2 d) ->
            mailbox h1 a1 (v6 L) (fun a => nlAddress L a = true) s -> mailbox h2 a2 (v6 L) (fun a => nlAddress L a = true) s).
  { intros h1 a1 h2 a2 HH HA (l & d & E & N & K1 & K2 & C). exists l, d. split; [exact E|]. split; [exact N|]. split; [exact K1|]. split; [exact K2|].
    destruct C as [C|[(x & y & (u & w & U & W & ->) & Y & ->)|[C A]]]; [left; exact C| |right; right; split; [exact (HH _ C)|exact A]].
    right. left. apply cat_made; [apply cat_made; [exact U|exact (HA _ W)]|exact Y]. }
  split.
  - split; apply M; intros d D; first [exact (proj2 (hostname_iff d) D) | exact (proj2 (ipv4_iff d) D) | exact (proj1 (hostname_iff d) D) | exact (proj1 (ipv4_iff d) D)].
  - apply M.
    + intros d (labels & N & F & LN & E). destruct labels as [|first labels]; [congruence|]. inversion F; subst. exists first, labels.
      split; [auto|]. split; [|auto]. eapply Forall_impl; [|eassumption]. intros l K. apply label_loose in K. tauto.
    + intros d (a & b & c & e & A & B & C & D & ->). exists a, b, c, e. repeat (split; [left; assumption|]). reflexivity.
Qed.
Print Assumptions C46_email_partial.
Theorem C46_ipv6 : forall L s, validFormat L "ipv6" (JStr s) = true <-> has ":" s /\ nlIP L s = true.
Proof. intros L s. exact (ipv6_iff L s). Qed.
Print Assumptions C46_ipv6.
(* URIs: what net/url parses, if a host with a colon is an IPv6 address in brackets *)
Theorem C46_uri : forall L s f, f = "uri" \/ f = "iri" ->
  (validFormat L f (JStr s) = true <-> exists u, nlUrl L s = Some u /\ uIsAbs u = true /\
    (has ":" (uHostname u) -> has "[" (uHost u) /\ has "]" (uHost u) /\ nlIP L (uHostname u) = true)).
Proof.
  intros L s f F. assert (E : validFormat L f (JStr s) = isURI L s) by (destruct F as [-> | ->]; reflexivity). rewrite E. unfold isURI. split.
  - destruct (urlParse L s) as [u|] eqn:U; [|discriminate]. intros A. apply urlParse_iff in U. destruct U as [U K]. exists u.
    split; [exact U|]. split; [exact A|]. intros H. destruct (K H) as (B & C & _ & D). auto.
  - intros (u & U & A & K). assert (W : urlParse L s = Some u).
    { apply urlParse_iff. split; [exact U|]. intros H. destruct (K H) as (B & C & D). split; [exact B|]. split; [exact C|]. split; [exact H|exact D]. }
    rewrite W. exact A.
Qed.
Print Assumptions C46_uri.
Theorem C46_uri_reference : forall L s f, f = "uri-reference" \/ f = "uriref" \/ f = "iri-reference" ->
  (validFormat L f (JStr s) = true <-> ~ has "\" s /\ exists u, nlUrl L s = Some u /\
    (has ":" (uHostname u) -> has "[" (uHost u) /\ has "]" (uHost u) /\ nlIP L (uHostname u) = true)).
Proof.
  intros L s f F. assert (E : validFormat L f (JStr s) = isURIReference L s) by (destruct F as [-> | [-> | ->]]; reflexivity). rewrite E. unfold isURIReference. split.
  - destruct (urlParse L s) as [u|] eqn:U; [|discriminate]. intros A. split.
    + intros H. apply contains_iff in H. rewrite H in A. discriminate.
    + apply urlParse_iff in U. destruct U as [U K]. exists u. split; [exact U|]. intros H. destruct (K H) as (B & C & _ & D). auto.
  - intros (N & u & U & K). assert (W : urlParse L s = Some u).
    { apply urlParse_iff. split; [exact U|]. intros H. destruct (K H) as (B & C & D). split; [exact B|]. split; [exact C|]. split; [exact H|exact D]. }
    rewrite W. destruct (containsStr "\" s) eqn:C; [|reflexivity]. apply contains_iff in C. contradiction.
Qed.
Print Assumptions C46_uri_reference.
(* templates: a URI whose path is, between its slashes, text without braces and expressions in braces *)
Theorem C46_uri_template : forall L s,
  validFormat L "uri-template" (JStr s) = true <-> exists u, nlUrl L s = Some u /\
    (has ":" (uHostname u) -> has "[" (uHost u) /\ has "]" (uHost u) /\ nlIP L (uHostname u) = true) /\
    forall x, segment (uRawPath u) x -> template x.
Proof.
  intros L s. assert (E : validFormat L "uri-template" (JStr s) = isURITemplate L s) by reflexivity. rewrite E, template_iff. unfold urlOk, v6. split.
  - intros (u & (U & K) & H). exists u. split; [exact U|]. split; [|exact H]. intros C. destruct (K C) as (A & B & _ & D). auto.
  - intros (u & U & K & H). exists u. split; [|exact H]. split; [exact U|]. intros C. destruct (K C) as (A & B & D). auto.
Qed.
Print Assumptions C46_uri_template.
(* the formats of strings refuse every other value, except time, regex and unknown *)
Theorem C46_strings_only : forall L f v, (forall s, v <> JStr s) -> ~ In f ["time"; "regex"; "unknown"] -> validFormat L f v = false.
Proof.
  intros L f v V F. unfold validFormat. destruct (assoc f (formatValidators L)) as [p|] eqn:A; [|reflexivity].
  assert (I : In (f, p) (formatValidators L)). { clear - A. revert A. induction (formatValidators L) as [|[a b] l IH]; cbn [assoc]; [discriminate|].
    destruct (String.eqb_spec f a) as [<-|]; [intros E; injection E as <-; left; reflexivity|]. intros E. right. auto. }
  unfold formatValidators in I. cbn [In] in I.
  assert (G : forall g, onString false g v = false) by (intros g; destruct v; try reflexivity; exfalso; eapply V; reflexivity).
  repeat (destruct I as [I|I]; [injection I as <- <-; first [apply G | exfalso; apply F; cbn; tauto]|]). destruct I.
Qed.
Print Assumptions C46_strings_only.
Definition demoLib : netlib := mkNetlib (fun s => String.eqb s "::1") (fun s => String.eqb s "a@b.c")
  (fun s => if String.eqb s "http://h/{x}/a" then Some (mkUrlInfo "h" "h" true "/{x}/a") else None) (fun _ => true).
Example C46_library_case :
  mailbox hostname ipv4 (fun a => has ":" a /\ nlIP demoLib a = true) (fun a => nlAddress demoLib a = true) "a@b.c" /\
  validFormat demoLib "email" (JStr "x@y@[IPv6:::1]") = true /\ validFormat demoLib "email" (JStr "a@[1.2.3.4]") = true /\
  validFormat demoLib "email" (JStr "a@[::1]") = false /\ validFormat demoLib "uri-template" (JStr "http://h/{x}/a") = true /\
  ~ template "{a{b}}" /\ template "a{b}c{}" /\ (forall x, segment "/{x}/a" x -> In x [""; "{x}"; "a"]).
Proof.
  split. { exists "a", "b.c". split; [reflexivity|]. split. { unfold has. cbn. intros [H|[H|[H|[]]]]; discriminate H. } split; [cbn; lia|]. split; [cbn; lia|].
    right. right. split; [|reflexivity]. exists ["b"; "c"]. split; [discriminate|].
    assert (LB : forall c, alnum c -> c <> "-"%char -> label (String c "")).
    { intros c A N. split; [cbn; lia|]. split; [intros [|i] d D; cbn in D; [injection D as <-; left; exact A|destruct i; discriminate]|].
      split; cbn; congruence. }
    split; [|split; [cbn; lia|left; reflexivity]]. constructor; [|constructor; [|constructor]]; apply LB; try discriminate; left; split; vm_compute; discriminate. }
  split; [reflexivity|]. split; [reflexivity|]. split; [reflexivity|]. split; [reflexivity|]. split; [|split].
  - intros H. apply braces_made in H. discriminate H.
  - apply braces_ok. reflexivity.
  - intros x H. apply split_segment in H. exact H.
Qed.
