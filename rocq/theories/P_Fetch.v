(* Properties C40, C41 and C42: which external documents are asked for, and how often.
   Policies, urls and rounds of the queue: SpecFetch.v; the outside world: Fetch.v. *)
From Coq Require Import ZArith List String Ascii Bool Lia.
From Verif Require Import Base Float64 Json Schema Util Number Gen Codec PState RefPath Merge NotMerge Parse ParseKeep Fetch SpecFetch SpecParse PFacts DocProps DocWaits FetchProps MergeProps.
Import ListNotations.
Open Scope string_scope.
Open Scope Z_scope.

(* ------------------------------------------------------------------ C40 *)

(* Whatever the schema, its references and the documents they lead to: every request made while parsing is
   for a url that is https (or insecure access is allowed) and whose host is listed (if there is a list).
   Missing from the full statement: redirections, which http.Get follows unchecked (refuted below). *)
Theorem C40_requests_partial : forall W h f allowed E fuel parsing rootId n r s' u,
  urlLaws W ->
  parseDoc (withFetchers W h f allowed E) fuel parsing rootId n = Ok (r, s') ->
  In (Request u) (accesses W h f (pLog s')) ->
  exists v, wParse W u = Some v /\
    (hInsecure h = true \/ wScheme W v = "https") /\
    (hHosts h = [] \/ In (wHost W v) (hHosts h)).
Proof. intros W h f allowed E fuel parsing rootId n r s' u L H Hin. exact (parse_accesses W L h f allowed E fuel parsing rootId n r s' (Request u) H Hin). Qed.
Print Assumptions C40_requests_partial.

(* and nothing is asked for at all when no fetcher is enabled *)
Theorem C40_disabled : forall E fuel parsing rootId n r s',
  pxFetchers E = false -> parseDoc E fuel parsing rootId n = Ok (r, s') -> pLog s' = [].
Proof.
  intros E fuel parsing rootId n r s' Hf H. apply parseDoc_inv in H. destruct H as [_ _ _ _ _ _ _ Hl].
  destruct (pLog s') as [|x l]; [reflexivity|]. inversion Hl as [|y l' [Hx _]]. congruence.
Qed.
Print Assumptions C40_disabled.

(* a world with four urls, a file system rooted at [cwd], and shallow globs *)
Inductive durl := UGood | UBad | UFile | UNone.
Definition startsWith (p t : string) : bool := match cutPrefix p t with Some _ => true | None => false end.
Definition demoW (cwd : string) (get : string -> option schemaNode) (read : string -> option schemaNode) : world :=
  mkW durl
    (fun u => match u with UGood | UBad => "https" | UFile => "file" | UNone => "" end)
    (fun u => match u with UGood => "good.example" | UBad => "bad.example" | _ => "" end)
    (fun u => match u with UGood => "https://good.example/s.json" | UBad => "https://bad.example/s.json" | UFile => "file:///x" | UNone => "x.json" end)
    (fun t => Some (if startsWith "file://" t then UFile else if String.eqb t "https://good.example/s.json" then UGood
                    else if String.eqb t "https://bad.example/s.json" then UBad else UNone))
    (fun b v => match v with UNone => b | _ => v end)
    (startsWith "/")
    (fun _ p => cwd ++ "/" ++ p)
    (fun p => Some p)
    (Some cwd)
    (fun a p => Some (match cutPrefix (a ++ "/") p with Some r => negb (hasChar "/" r) | None => false end))
    get read.
Lemma demoLaws : forall cwd get read, urlLaws (demoW cwd get read).
Proof.
  intros. constructor.
  - intros v t _ H _. exists v. destruct v, H as [->| ->]; repeat split.
  - intros t v H. cbn in H. injection H as <-. reflexivity.
  - intros b v. destruct v; reflexivity.
Qed.

Definition refNode (ref : string) : schemaNode := set_sRef (Some ref) emptyNode.
Definition twoRefs (a b : string) : schemaNode := set_sAnyOf (Some [refNode a; refNode b]) emptyNode.
Definition onlyGood := mkHttp true ["good.example"] false.
Definition noFile := mkFile false [] false.
Definition noHttp := mkHttp false [] false.
Definition parseLog (W : world) (h : httpOpts) (f : fileOpts) (allowed : list string) (n : schemaNode) : option (list access) :=
  match parseDoc (withFetchers W h f allowed demoPE) 40 "file:///w/" "file:///w/doc" n with
  | Ok (_, s') => Some (accesses W h f (pLog s')) | _ => None end.
Lemma parseLog_ok : forall W h f allowed n l, parseLog W h f allowed n = Some l ->
  exists r s', parseDoc (withFetchers W h f allowed demoPE) 40 "file:///w/" "file:///w/doc" n = Ok (r, s') /\ accesses W h f (pLog s') = l.
Proof.
  intros W h f allowed n l H. unfold parseLog in H.
  destruct (parseDoc _ _ _ _ _) as [[r s']| |]; [|discriminate|discriminate]. exists r, s'. split; [reflexivity|congruence].
Qed.

(* two references, one to each host: only the listed one is asked for *)
Example C40_case :
  let W := demoW "/w" (fun _ => Some emptyNode) (fun _ => None) in
  urlLaws W /\
  parseLog W onlyGood noFile [] (twoRefs "https://bad.example/s.json#/a" "https://good.example/s.json#/a") =
    Some [Request "https://good.example/s.json"].
Proof. split; [apply demoLaws|vm_compute; reflexivity]. Qed.

(* the listed host answers with a redirection, and a host that is not listed is asked *)
Theorem C40_redirect_refuted : exists W h f E n r s' u answer u',
  urlLaws W /\
  parseDoc (withFetchers W h f [] E) 40 "file:///w/" "file:///w/doc" n = Ok (r, s') /\
  In (Request u) (accesses W h f (pLog s')) /\
  In u' (httpGet answer 10 u) /\
  forall v, wParse W u' = Some v -> hHosts h <> [] /\ ~ In (wHost W v) (hHosts h).
Proof.
  set (W := demoW "/w" (fun _ => Some emptyNode) (fun _ => None)).
  assert (H : parseLog W onlyGood noFile [] (refNode "https://good.example/s.json#/a") = Some [Request "https://good.example/s.json"]) by (vm_compute; reflexivity).
  apply parseLog_ok in H. destruct H as (r & s' & H1 & H2).
  exists W, onlyGood, noFile, demoPE, (refNode "https://good.example/s.json#/a"), r, s', "https://good.example/s.json",
    (fun u => if String.eqb u "https://good.example/s.json" then Some "https://bad.example/s.json" else None), "https://bad.example/s.json".
  split; [apply demoLaws|]. split; [exact H1|]. split; [rewrite H2; left; reflexivity|]. split; [right; left; reflexivity|].
  intros v Hv. injection Hv as <-. split; [discriminate|]. intros [Hb|[]]. discriminate.
Qed.
Print Assumptions C40_redirect_refuted.

(* ------------------------------------------------------------------ C41 *)

(* Every file read while parsing is at or below the working directory, unless outside access is allowed.
   Missing from the full statement: the allowed paths, and working directories with a '#' in their name
   (both refuted below). *)
Theorem C41_inside_partial : forall W h f allowed E fuel parsing rootId n r s' path cwd,
  urlLaws W ->
  parseDoc (withFetchers W h f allowed E) fuel parsing rootId n = Ok (r, s') ->
  In (ReadFile path) (accesses W h f (pLog s')) ->
  fOutside f = false -> wCwd W = Some cwd -> hasChar "#" cwd = false ->
  exists rest, elements path = (elements cwd ++ rest)%list.
Proof.
  intros W h f allowed E fuel parsing rootId n r s' path cwd L H Hin Ho Hc Hh.
  destruct (parse_accesses W L h f allowed E fuel parsing rootId n r s' (ReadFile path) H Hin) as [_ (full & -> & [Hx|(c & Hc' & Hx)])]; [congruence|].
  assert (c = cwd) by congruence. subst c. exact (below_trunc cwd full Hh Hx).
Qed.
Print Assumptions C41_inside_partial.

(* without allowed paths no file is ever read, not even inside the working directory *)
Theorem C41_nothing_without_paths : forall W h f E fuel parsing rootId n r s' path,
  urlLaws W ->
  parseDoc (withFetchers W h f [] E) fuel parsing rootId n = Ok (r, s') ->
  ~ In (ReadFile path) (accesses W h f (pLog s')).
Proof.
  intros W h f E fuel parsing rootId n r s' path L H Hin.
  destruct (parse_accesses W L h f [] E fuel parsing rootId n r s' (ReadFile path) H Hin) as [Hx _]. apply Hx. reflexivity.
Qed.
Print Assumptions C41_nothing_without_paths.

Definition someFile (l : list string) := mkFile true l false.
Example C41_case :
  let W := demoW "/w" (fun _ => None) (fun _ => Some emptyNode) in
  urlLaws W /\ wCwd W = Some "/w" /\
  parseLog W noHttp (someFile ["/w/sub"]) ["/w/sub"] (twoRefs "file:///etc/x.json#/a" "file:///w/x.json#/a") = Some [ReadFile "/w/x.json"] /\
  parseLog W noHttp (someFile []) [] (twoRefs "file:///etc/x.json#/a" "file:///w/x.json#/a") = Some [].
Proof. split; [apply demoLaws|]. split; [reflexivity|]. split; vm_compute; reflexivity. Qed.

(* only /w/ok is allowed: a file of /w/secret is read, and one of /w/ok is not *)
Theorem C41_allowed_refuted : exists W f n r s',
  urlLaws W /\ fPaths f = ["/w/ok"] /\ fOutside f = false /\ wCwd W = Some "/w" /\
  realPaths W (fPaths f) = Some ["/w/ok"] /\
  parseDoc (withFetchers W noHttp f ["/w/ok"] demoPE) 40 "file:///w/" "file:///w/doc" n = Ok (r, s') /\
  n = twoRefs "file:///w/secret/x.json#/a" "file:///w/ok/x.json#/a" /\
  accesses W noHttp f (pLog s') = [ReadFile "/w/secret/x.json"] /\
  ~ below "/w/ok" "/w/secret/x.json" /\ below "/w/ok" "/w/ok/x.json".
Proof.
  set (W := demoW "/w" (fun _ => None) (fun _ => Some emptyNode)). set (f := someFile ["/w/ok"]).
  set (n := twoRefs "file:///w/secret/x.json#/a" "file:///w/ok/x.json#/a").
  assert (H : parseLog W noHttp f ["/w/ok"] n = Some [ReadFile "/w/secret/x.json"]) by (vm_compute; reflexivity).
  apply parseLog_ok in H. destruct H as (r & s' & H1 & H2). exists W, f, n, r, s'.
  split; [apply demoLaws|]. split; [reflexivity|]. split; [reflexivity|]. split; [reflexivity|]. split; [reflexivity|].
  split; [exact H1|]. split; [reflexivity|]. split; [exact H2|]. split.
  - intros [rest Hr]. vm_compute in Hr. discriminate.
  - exists ["x.json"]. reflexivity.
Qed.
Print Assumptions C41_allowed_refuted.

(* the working directory is called /w#1: the file read is /w, outside of it *)
Theorem C41_hash_refuted : exists W f n r s',
  urlLaws W /\ fOutside f = false /\ wCwd W = Some "/w#1" /\
  parseDoc (withFetchers W noHttp f ["/w#1/sub"] demoPE) 40 "file:///w/" "file:///w/doc" n = Ok (r, s') /\
  accesses W noHttp f (pLog s') = [ReadFile "/w"] /\ ~ below "/w#1" "/w".
Proof.
  set (W := demoW "/w#1" (fun _ => None) (fun _ => Some emptyNode)). set (f := someFile ["/w#1/sub"]).
  assert (H : parseLog W noHttp f ["/w#1/sub"] (refNode "x.json#/a") = Some [ReadFile "/w"]) by (vm_compute; reflexivity).
  apply parseLog_ok in H. destruct H as (r & s' & H1 & H2). exists W, f, (refNode "x.json#/a"), r, s'.
  split; [apply demoLaws|]. split; [reflexivity|]. split; [reflexivity|]. split; [exact H1|]. split; [exact H2|].
  intros [rest Hr]. vm_compute in Hr. discriminate.
Qed.
Print Assumptions C41_hash_refuted.

(* ------------------------------------------------------------------ C42 *)

(* Processing the queue after the root document: an id whose document was fetched is not taken from the
   queue again, and the root document never is.  Missing from the full statement: ids whose document could
   not be fetched (refuted below). *)
Theorem C42_once_partial : forall E fuel parsing rootId n r s l s',
  parseRoot E fuel n (initP E parsing rootId n) = Ok (r, s) -> rounds E fuel s l s' ->
  (forall l1 id l2, l = (l1 ++ (id, true) :: l2)%list -> ~ In id (map fst l2)) /\ ~ In rootId (map fst l).
Proof.
  intros E fuel parsing rootId n r s l s' H Hr. apply (st_parseRoot E) in H.
  assert (I := kInv _ _ _ H _ (initP_inv E parsing rootId n)).
  split; [exact (rounds_once E fuel _ _ _ _ Hr I)|]. apply (rounds_settled E fuel _ _ _ _ Hr I).
  destruct I. split; [exact iRootDone|]. left. destruct (assoc rootId (pDocs s)); [eauto|congruence].
Qed.
Print Assumptions C42_once_partial.

(* the rounds are what ParseSchema performs *)
Theorem C42_rounds : forall E fuel parsing rootId n r s', parseDoc E fuel parsing rootId n = Ok (r, s') ->
  exists s l, parseRoot E fuel n (initP E parsing rootId n) = Ok (r, s) /\ rounds E fuel s l s'.
Proof.
  intros E fuel parsing rootId n r s' H. unfold parseDoc in H. unfold pbind at 1 in H.
  destruct (parseRoot E fuel n _) as [[g s]| |]; [|discriminate|discriminate].
  unfold pbind in H. destruct (drain E fuel fuel s) as [[[] s2]| |] eqn:Hd; [|discriminate|discriminate].
  cbn in H. injection H as <- <-. apply drain_rounds in Hd. destruct Hd as [l Hd]. exists s, l. auto.
Qed.
Print Assumptions C42_rounds.

(* The queue empties: if finitely many ids are ever accepted and no single document exhausts the parser, a
   bounded number of rounds suffices. *)
Theorem C42_drains : forall E fuel parsing rootId n r s ids k,
  parseRoot E fuel n (initP E parsing rootId n) = Ok (r, s) ->
  (forall p scope doc id, pxResolveId E p scope doc = Some id -> In id ids) ->
  (forall p id d t, pxFetch E p id = Some d -> parseRoot E fuel d t <> Timeout) ->
  (List.length (pQueue s) + 2 * List.length ids * (2 * List.length ids + 1) < k)%nat ->
  drain E fuel k s <> Timeout.
Proof.
  intros E fuel parsing rootId n r s ids k H Hids Hp Hk. apply (st_parseRoot E) in H.
  assert (I := kInv _ _ _ H _ (initP_inv E parsing rootId n)).
  eapply drain_terminates; [exact I| |exact Hp|].
  - intros c (p & a & b & Hc). eapply Hids; eauto.
  - assert (Hl : List.length (universe ids) = (2 * List.length ids)%nat) by (unfold universe; rewrite app_length, map_length; lia).
    assert (Ho : (openIn (universe ids) s <= List.length (universe ids))%nat).
    { unfold openIn. generalize (universe ids). induction l as [|x l IH]; cbn [filter]; [cbn; lia|]. destruct (negb _); cbn [List.length]; lia. }
    rewrite Hl in *. nia.
Qed.
Print Assumptions C42_drains.

(* The root refers to two documents, b and g, and g refers to b.  Fetching b fails, and it is tried twice. *)
Definition cycleW := demoW "/w" (fun u => if String.eqb u "https://good.example/s.json" then Some (refNode "https://bad.example/s.json#/a") else None) (fun _ => None).
Definition openHttp := mkHttp true [] false.
Theorem C42_failing_refuted : exists W h f n r s',
  parseDoc (withFetchers W h f [] demoPE) 40 "file:///w/" "file:///w/doc" n = Ok (r, s') /\
  n = twoRefs "https://bad.example/s.json#/a" "https://good.example/s.json#/a" /\
  accesses W h f (pLog s') =
    [Request "https://bad.example/s.json"; Request "https://good.example/s.json"; Request "https://bad.example/s.json"].
Proof.
  set (n := twoRefs "https://bad.example/s.json#/a" "https://good.example/s.json#/a").
  assert (H : parseLog cycleW openHttp noFile [] n = Some [Request "https://bad.example/s.json"; Request "https://good.example/s.json"; Request "https://bad.example/s.json"]) by (vm_compute; reflexivity).
  apply parseLog_ok in H. destruct H as (r & s' & H1 & H2). exists cycleW, openHttp, noFile, n, r, s'. auto.
Qed.
Print Assumptions C42_failing_refuted.

(* Two documents that refer to each other: each is asked for once. *)
Definition mutualW := demoW "/w" (fun u => Some (refNode (if String.eqb u "https://good.example/s.json" then "https://bad.example/s.json#/a" else "https://good.example/s.json#/a"))) (fun _ => None).
Example C42_case :
  parseLog mutualW openHttp noFile [] (refNode "https://good.example/s.json#/a") =
    Some [Request "https://bad.example/s.json"; Request "https://good.example/s.json"] /\
  (forall p scope doc id, resolveId mutualW openHttp noFile [] p scope doc = Some id ->
     In id ["https://good.example/s.json"; "https://bad.example/s.json"; "file:///x"; "x.json"]).
Proof.
  split; [vm_compute; reflexivity|]. intros p scope doc id H. apply resolveId_cases in H.
  destruct H as [[_ H]|[H _]].
  - apply httpResolve_ok in H; [|apply demoLaws]. destruct H as (v & _ & _ & -> & _). destruct v; cbn; tauto.
  - exfalso. unfold fetcherFor, forScheme in H. cbn in H. destruct (startsWith "file://" doc); cbn in H; [discriminate|].
    destruct (String.eqb doc _); cbn in H; [discriminate|]. destruct (String.eqb doc _); cbn in H; [discriminate|].
    destruct (startsWith "file://" p); cbn in H; [discriminate|].
    destruct (String.eqb p _); cbn in H; [discriminate|]. destruct (String.eqb p _); cbn in H; discriminate.
Qed.

(* Nothing that is referred to is forgotten.  Parsing a reference that names a document leaves that document
   parsed or waiting in the queue; *)
Theorem C42_reference_waits : forall E fuel n ref s g s', sRef n = Some ref -> refDoc ref <> "" -> sConstraints n = None ->
  parseNode E fuel n s = Ok (Good g, s') -> exists d p, g = GRef d p /\ waits s' d.
Proof.
  intros E fuel n ref s g s' HR HD HC H. destruct fuel as [|f]; [discriminate|]. unfold parseNode in H. cbn [parseF] in H. unfold nodeStep in H.
  apply pbind_ok in H. destruct H as (s0 & s1 & H0 & H). apply pget_ok in H0. destruct H0 as [-> ->].
  apply pbind_ok in H. destruct H as (u1 & s1 & H1 & H). apply pmod_ok in H1.
  apply pbind_ok in H. destruct H as (q & s2 & H2 & H). apply pbind_ok in H. destruct H as (s3 & s4 & H3 & H). apply pget_ok in H3. destruct H3 as [-> ->].
  apply pbind_ok in H. destruct H as (u2 & s3 & H3 & H). apply pmod_ok in H3. apply pret_ok in H. destruct H as [<- ->].
  destruct (pxMaxDepth E <? pDepth s + 1); [apply pret_ok in H2; destruct H2; discriminate|].
  apply pbind_ok in H2. destruct H2 as (u4 & s4 & H4 & H2). apply pmod_ok in H4.
  apply pbind_ok in H2. destruct H2 as (r0 & s5 & H5 & H2). apply pbind_ok in H2. destruct H2 as (u6 & s6 & H6 & H2).
  apply pbind_ok in H2. destruct H2 as (u7 & s7 & H7 & H2). apply pbind_ok in H2. destruct H2 as (u8 & s8 & H8 & H2).
  rewrite HC in H2. apply pret_ok in H2. destruct H2 as [<- ->].
  destruct f as [|f]; [discriminate|]. cbn [parseF] in H5. unfold schemaStep in H5. rewrite HR in H5.
  destruct (unsupported n); [apply pret_ok in H5; destruct H5; discriminate|]. unfold parseReference in H5.
  destruct (containsStr "/allOf/" ref); [apply pret_ok in H5; destruct H5; discriminate|].
  apply pbind_ok in H5. destruct H5 as (x & t & H5 & H9). destruct x as [[d p]|m]; [|apply pret_ok in H9; destruct H9; discriminate].
  apply pret_ok in H9. destruct H9 as [G ->]. injection G as ->. exists d, p. split; [reflexivity|].
  apply deferred_waits in H5; [|exact HD]. cbn [isBad] in H6. apply pret_ok in H6. destruct H6 as [_ ->].
  assert (W7 : waits s7 d) by (destruct (sId n); [apply pmod_ok in H7; subst s7; exact H5|apply pret_ok in H7; destruct H7 as [_ ->]; exact H5]).
  unfold addRef, addIdRef in H8. apply pmod_ok in H8. subst s3 s8. exact W7.
Qed.
Print Assumptions C42_reference_waits.

(* whatever is parsed next does not change that; *)
Theorem C42_still_waits : forall E fuel n s r s' d, parseNode E fuel n s = Ok (r, s') -> parsedStored s -> waits s d ->
  waits s' d /\ parsedStored s'.
Proof.
  intros E fuel n s r s' d H J W. apply (st_parseNode E) in H. split; [exact (keeps_waits E _ _ _ H J W)|exact (keeps_stored E _ _ H J)].
Qed.
Print Assumptions C42_still_waits.

(* and once the queue is empty, every document that waited has been parsed, or an error is recorded for it. *)
Theorem C42_waiting_parsed : forall E fuel parsing rootId n r s t l s' d,
  parseRoot E fuel n (initP E parsing rootId n) = Ok (r, s) -> someRounds E fuel s t -> waits t d -> rounds E fuel t l s' ->
  parsedDoc s' d \/ errorAt s' d "#document_parse_error".
Proof.
  intros E fuel parsing rootId n r s t l s' d H H1 W H2. apply (st_parseRoot E) in H.
  pose proof (kInv _ _ _ H _ (initP_inv E parsing rootId n)) as I. pose proof (keeps_stored E _ _ H (initP_stored E parsing rootId n)) as J.
  assert (P : pPath s = "#") by (destruct H; exact kPath).
  clear H r. revert I J P. induction H1 as [s|s id rest s1 t Hq Hn Hr IH]; intros I J P.
  - destruct (rounds_parsed E fuel rootId _ _ _ H2 I J d W) as [X|X]; [auto|]. rewrite P in X. auto.
  - destruct (parseNext_keeps E fuel rootId id rest s tt s1 I Hq Hn) as (I1 & _ & _).
    assert (W' : waits s id) by (left; rewrite Hq; left; reflexivity).
    destruct (next_waits E fuel rootId id rest s s1 id I J Hq Hn W') as (J1 & _ & P1 & _). apply IH; auto. congruence.
Qed.
Print Assumptions C42_waiting_parsed.

(* The root merges a reference into document b, which is fetched for that, and refers to b elsewhere: b is
   parsed.  The reference to a document that cannot be fetched is reported. *)
Definition waitNode : schemaNode :=
  set_sProperties (Some [("m", set_sAllOf (Some [refNode "https://good.example/s.json#"]) emptyNode);
                         ("r", refNode "https://good.example/s.json#");
                         ("q", refNode "https://bad.example/s.json#")]) emptyNode.
Definition waitW := demoW "/w" (fun u => if String.eqb u "https://good.example/s.json" then Some (set_sMinLength (Some 3) emptyNode) else None) (fun _ => None).
Example C42_waits_case :
  match parseRoot (withFetchers waitW openHttp noFile [] demoPE) 40 waitNode (initP demoPE "file:///w/" "file:///w/doc" waitNode) with
  | Ok (Good (GObject [_; ("r", GRef d _); _] _ _ _), s) => pQueue s = [d; "https://bad.example/s.json"] /\ assoc d (pDone s) = Some false
  | _ => False
  end /\
  match parseDoc (withFetchers waitW openHttp noFile [] demoPE) 40 "file:///w/" "file:///w/doc" waitNode with
  | Ok (Good (GObject [_; ("r", GRef d _); _] _ _ _), s') =>
      assoc d (pDone s') = Some true /\ map fst (pErrs s') = [("https://bad.example/s.json", "#document_parse_error")]
  | _ => False
  end.
Proof. split; vm_compute; auto. Qed.
