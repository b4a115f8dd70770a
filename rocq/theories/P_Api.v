(* Properties C49, C51, C52 and C53: the options of the parser, and the command line tool.
   Entry points, flags and file system calls: Api.v; the outside world: Fetch.v. *)
From Coq Require Import ZArith List String Ascii Bool Lia.
From Verif Require Import Base Float64 Json Schema Util Number Options Gen Codec PState PFacts RefPath Merge NotMerge Parse ParseKeep Regen Fetch SpecFetch DocProps FetchProps MergeProps Api P_Fetch P_Parse.
Import ListNotations.
Open Scope string_scope.
Open Scope Z_scope.

(* a finished parse was a parse of the decoded schema under the options with their defaults *)
Lemma parseSchema_inv : forall W L fuel text o r s, parseSchema W L fuel text o = Ok (Parsed r s) ->
  exists j n allowed, lbDecode L text = Some j /\ decodeNode j = Some n /\
    parseDoc (penvOf W L (withDefaultParse o) allowed) fuel (fst (rootIds W (withDefaultParse o))) (snd (rootIds W (withDefaultParse o))) n = Ok (r, s).
Proof.
  intros W L fuel text o r s H. unfold parseSchema in H. destruct (lbDecode L text) as [j|]; [|discriminate]. destruct (decodeNode j) as [n|] eqn:En; [|discriminate].
  destruct (if fEnabled (poFile (withDefaultParse o)) then _ else _) as [allowed|]; [|discriminate].
  destruct (rootIds W (withDefaultParse o)) as [rel rid] eqn:Er. destruct (negb (lbResource L rel j)); [discriminate|].
  destruct (parseDoc _ _ _ _ _) as [[r' s']| |] eqn:Ep; [|discriminate|discriminate].
  exists j, n, allowed. cbn [fst snd]. assert (r' = r /\ s' = s) by (split; congruence). destruct H0 as [-> ->]. auto.
Qed.

(* ------------------------------------------------------------------ C49 *)

(* MaxParseDepth is respected; zero stands for 100 *)
Theorem C49_depth : forall W L fuel text o r s, parseSchema W L fuel text o = Ok (Parsed r s) -> 0 <= poMaxDepth o ->
  pDeep s <= (if poMaxDepth o =? 0 then 100 else poMaxDepth o).
Proof.
  intros W L fuel text o r s H HD. apply parseSchema_inv in H. destruct H as (j & n & allowed & _ & _ & H).
  assert (Q : getInt (poMaxDepth o) 100 = if poMaxDepth o =? 0 then 100 else poMaxDepth o)
    by (unfold getInt; destruct (poMaxDepth o =? 0); reflexivity).
  rewrite <- Q. apply (C29_depth (penvOf W L (withDefaultParse o) allowed)) in H; [exact H|].
  cbn [pxMaxDepth penvOf withFetchers withDefaultParse poMaxDepth]. rewrite Q. destruct (poMaxDepth o =? 0); lia.
Qed.
Print Assumptions C49_depth.

(* every request made is one that the caller's fetch options permit *)
Theorem C49_fetches : forall W L fuel text o r s u, urlLaws W -> parseSchema W L fuel text o = Ok (Parsed r s) ->
  In (Request u) (accesses W (poHttp o) (poFile o) (pLog s)) ->
  exists v, wParse W u = Some v /\ (hInsecure (poHttp o) = true \/ wScheme W v = "https") /\ (hHosts (poHttp o) = [] \/ In (wHost W v) (hHosts (poHttp o))).
Proof.
  intros W L fuel text o r s u HW H Hin. apply parseSchema_inv in H. destruct H as (j & n & allowed & _ & _ & H).
  unfold penvOf in H. cbn [withDefaultParse poHttp poFile] in H. exact (C40_requests_partial W (poHttp o) (poFile o) allowed _ fuel _ _ n r s u HW H Hin).
Qed.
Print Assumptions C49_fetches.

(* a "pattern" is judged under the caller's RegexStringOptions; without any, under the documented default
   (at most 10 repetitions, no random bytes, Perl syntax) *)
Theorem C49_string_options : forall W L o allowed n p r s s', sPattern n = Some p ->
  parseString (penvOf W L (withDefaultParse o) allowed) n s = Ok (Good r, s') ->
  lbRegexOk L (match poString o with Some a => a | None => mkRO (mkArgs 0 10 false) true 16 end) p = true.
Proof.
  intros W L o allowed n p r s s' Hp H. unfold parseString in H. rewrite Hp in H. cbn [pxRegexOk penvOf withFetchers withDefaultParse poString] in H.
  repeat match type of H with (if ?b then bad _ else _) _ = _ => destruct b; [discriminate|] end.
  destruct (poString o) as [a|]; cbn [getPtr] in H; unfold defaultRegexOpts in H;
    match type of H with (if ?b then _ else _) _ = _ => destruct b; [reflexivity|discriminate] end.
Qed.
Print Assumptions C49_string_options.

(* RegexPatternPropertyOptions are never used: whatever the caller puts there, the outcome is the same *)
Theorem C49_pattern_options_refuted : forall W L fuel text o a,
  parseSchema W L fuel text (mkPO (poString o) a (poHttp o) (poFile o) (poRelativeTo o) (poMaxDepth o)) = parseSchema W L fuel text o.
Proof. intros. destruct o. reflexivity. Qed.
Print Assumptions C49_pattern_options_refuted.

(* ParseSchemaFile leaves the caller's options as they are if RelativeTo is set; and then a history of
   calls with one options value gives what each call alone gives.
   Missing from the full statement: RelativeTo not set (refuted below). *)
Theorem C49_unmodified_partial : forall W L readText fuel path o, poRelativeTo o <> "" -> snd (parseSchemaFile W L readText fuel path o) = o.
Proof.
  intros W L readText fuel path o H. unfold parseSchemaFile. destruct (wRealPath W path); [|reflexivity]. destruct (readText s); [|reflexivity].
  apply String.eqb_neq in H. rewrite H. reflexivity.
Qed.
Print Assumptions C49_unmodified_partial.
Theorem C49_histories_partial : forall W L readText fuel paths o, poRelativeTo o <> "" ->
  parseFiles W L readText fuel paths o = map (fun p => fst (parseSchemaFile W L readText fuel p o)) paths.
Proof.
  intros W L readText fuel paths o H. induction paths as [|p l IH]; [reflexivity|]. cbn [parseFiles map].
  pose proof (C49_unmodified_partial W L readText fuel p o H) as U. destruct (parseSchemaFile W L readText fuel p o) as [x o'].
  cbn [snd] in U. subst o'. rewrite IH. reflexivity.
Qed.
Print Assumptions C49_histories_partial.

(* how the caller spells the name of the file does not matter: two names of one file (through symbolic
   links, relative or absolute) give the same generator, the same errors and the same requests *)
Theorem C49_file_names : forall W L readText fuel p q o, wRealPath W p = wRealPath W q ->
  fst (parseSchemaFile W L readText fuel p o) = fst (parseSchemaFile W L readText fuel q o).
Proof. intros W L readText fuel p q o H. unfold parseSchemaFile. rewrite H. destruct (wRealPath W q); [|reflexivity]. destruct (readText s); reflexivity. Qed.
Print Assumptions C49_file_names.

(* a file system with /a/s.json and /b/s.json, both {"$ref": "t.json#/x"} *)
Definition dirOf (p : string) : string := if startsWith "/a/" p then "/a/" else "/b/".
Definition twoDirs : world :=
  mkW durl (fun u => match u with UFile => "file" | _ => "" end) (fun _ => "") (fun _ => "")
    (fun t => Some (if startsWith "file://" t then UFile else UNone)) (fun _ v => v) (startsWith "/") (fun from p => dirOf from ++ p)
    (fun p => Some p) (Some "/") (fun _ _ => Some false) (fun _ => None) (fun p => Some emptyNode).
Definition oneSchema : libs :=
  mkLibs (fun _ => Some (JObj [("$ref", JStr "t.json#/x")])) (fun _ _ => true) (fun _ _ => "") (fun _ => false)
    (fun _ _ => true) (fun _ => true) (fun _ => true) (fun _ _ => true) (fun _ => true).
Definition twoDirOptions : parserOptions := mkPO None None (mkHttp false [] false) (mkFile true ["/"] false) "" 0.
Definition fetchedBy (o : parserOptions) (r : res outcome) : option (list access) :=
  match r with Ok (Parsed _ s) => Some (accesses twoDirs (poHttp o) (poFile o) (pLog s)) | _ => None end.
(* Parsing /a/s.json and then /b/s.json with one options value: the second parse reads /a/t.json.  Parsed
   alone it reads /b/t.json. *)
Theorem C49_histories_refuted : exists W L readText fuel o,
  map (fetchedBy o) (parseFiles W L readText fuel ["/a/s.json"; "/b/s.json"] o) = [Some [ReadFile "/a/t.json"]; Some [ReadFile "/a/t.json"]] /\
  fetchedBy o (fst (parseSchemaFile W L readText fuel "/b/s.json" o)) = Some [ReadFile "/b/t.json"] /\
  poRelativeTo o = "" /\ poRelativeTo (snd (parseSchemaFile W L readText fuel "/a/s.json" o)) = "file:///a/s.json".
Proof.
  exists twoDirs, oneSchema, (fun _ => Some "{}"), 20%nat, twoDirOptions.
  split; [vm_compute; reflexivity|]. split; [vm_compute; reflexivity|]. split; reflexivity.
Qed.
Print Assumptions C49_histories_refuted.
Example C49_case : poRelativeTo (set_poRelativeTo "file:///b/" twoDirOptions) <> "" /\ 0 <= poMaxDepth twoDirOptions /\
  map (fetchedBy twoDirOptions) (parseFiles twoDirs oneSchema (fun _ => Some "{}") 20 ["/a/s.json"; "/b/s.json"] (set_poRelativeTo "file:///b/" twoDirOptions)) =
    [Some [ReadFile "/b/t.json"]; Some [ReadFile "/b/t.json"]].
Proof. split; [discriminate|]. split; [cbn; lia|vm_compute; reflexivity]. Qed.

(* /l/s.json is a link to /a/s.json *)
Definition linked : world :=
  mkW durl (fun u => match u with UFile => "file" | _ => "" end) (fun _ => "") (fun _ => "")
    (fun t => Some (if startsWith "file://" t then UFile else UNone)) (fun _ v => v) (startsWith "/") (fun from p => dirOf from ++ p)
    (fun p => Some (if startsWith "/l/" p then "/a/s.json" else p)) (Some "/") (fun _ _ => Some false) (fun _ => None) (fun p => Some emptyNode).
Example C49_case_names : wRealPath linked "/l/s.json" = wRealPath linked "/a/s.json" /\
  fetchedBy twoDirOptions (fst (parseSchemaFile linked oneSchema (fun _ => Some "{}") 20 "/l/s.json" twoDirOptions)) = Some [ReadFile "/a/t.json"].
Proof. split; [reflexivity|vm_compute; reflexivity]. Qed.

(* ------------------------------------------------------------------ C51 *)

(* without -allowed-hosts, -allow-insecure, -allowed-paths and -allow-outside-cwd nothing is fetched *)
Theorem C51_nothing_by_default : forall W L readText fuel f stdin r s,
  flHosts f = "" -> flInsecure f = false -> flPaths f = "" -> flOutside f = false ->
  cliParse W L readText fuel f stdin = Ok (Parsed r s) -> pLog s = [].
Proof.
  intros W L readText fuel f stdin r s H1 H2 H3 H4 H.
  assert (Q : exists text rel, parseSchema W L fuel text (set_poRelativeTo rel noOptions) = Ok (Parsed r s)).
  { unfold cliParse in H. destruct (negb (String.eqb (flFile f) "")).
    - unfold parseSchemaFile in H. destruct (wRealPath W (flFile f)) as [real|]; [|discriminate]. destruct (readText real) as [text|]; [|discriminate].
      cbn [fst cliOptions poRelativeTo] in H. rewrite String.eqb_refl in H. exists text, ("file://" ++ real).
      unfold cliOptions, cliHttp, cliFile in H. rewrite H1, H2, H3, H4 in H. exact H.
    - destruct stdin as [text|]; [|discriminate]. exists text, "". exact H. }
  destruct Q as (text & rel & Q). apply parseSchema_inv in Q. destruct Q as (j & n & allowed & _ & _ & Q).
  eapply C40_disabled; [|exact Q]. reflexivity.
Qed.
Print Assumptions C51_nothing_by_default.

(* with -file: every request is https or -allow-insecure is given, and goes to a host of the list, if one
   is given *)
Theorem C51_hosts_partial : forall W L readText fuel f stdin r s u, urlLaws W -> flFile f <> "" ->
  cliParse W L readText fuel f stdin = Ok (Parsed r s) ->
  In (Request u) (accesses W (cliHttp f) (cliFile f) (pLog s)) ->
  exists v, wParse W u = Some v /\ (flInsecure f = true \/ wScheme W v = "https") /\
    (flHosts f = "" \/ In (wHost W v) (splitComma "" (flHosts f))).
Proof.
  intros W L readText fuel f stdin r s u HW HF H Hin. unfold cliParse in H. apply String.eqb_neq in HF. rewrite HF in H. cbn [negb] in H.
  unfold parseSchemaFile in H. destruct (wRealPath W (flFile f)) as [real|]; [|discriminate]. destruct (readText real) as [text|]; [|discriminate].
  cbn [fst cliOptions poRelativeTo] in H. rewrite String.eqb_refl in H.
  destruct (C49_fetches W L fuel text _ r s u HW H Hin) as (v & Hv & Hs & Hh). exists v. split; [exact Hv|].
  cbn [set_poRelativeTo cliOptions poHttp] in Hs, Hh. unfold cliHttp in Hs, Hh.
  destruct (String.eqb (flHosts f) "") eqn:Eh; [apply String.eqb_eq in Eh; split; [|auto]|].
  - destruct (flInsecure f); cbn [andb negb hInsecure] in Hs; auto.
  - cbn [andb hInsecure hHosts] in Hs, Hh. split; [exact Hs|]. unfold commaList in Hh. rewrite Eh in Hh. destruct Hh as [Hh|Hh]; [|auto].
    exfalso. revert Hh. generalize "". generalize (flHosts f). intros l. induction l as [|c l IH]; intros cur; cbn [splitComma]; [discriminate|]. destruct (Ascii.eqb c ","); [discriminate|apply IH].
Qed.
Print Assumptions C51_hosts_partial.

(* with -file but without -allow-outside-cwd: every file read is inside the working directory; and without
   -allowed-paths no file is read *)
Lemma cli_file_run : forall W L readText fuel f stdin r s, flFile f <> "" -> cliParse W L readText fuel f stdin = Ok (Parsed r s) ->
  exists text rel, parseSchema W L fuel text (set_poRelativeTo rel (cliOptions f)) = Ok (Parsed r s).
Proof.
  intros W L readText fuel f stdin r s HF H. unfold cliParse in H. apply String.eqb_neq in HF. rewrite HF in H. cbn [negb] in H.
  unfold parseSchemaFile in H. destruct (wRealPath W (flFile f)) as [real|]; [|discriminate]. destruct (readText real) as [text|]; [|discriminate].
  cbn [fst cliOptions poRelativeTo] in H. rewrite String.eqb_refl in H. eauto.
Qed.
Theorem C51_files_partial : forall W L readText fuel f stdin r s path cwd, urlLaws W -> flFile f <> "" ->
  cliParse W L readText fuel f stdin = Ok (Parsed r s) -> In (ReadFile path) (accesses W (cliHttp f) (cliFile f) (pLog s)) ->
  flPaths f <> "" /\ (flOutside f = false -> wCwd W = Some cwd -> hasChar "#" cwd = false -> exists rest, elements path = (elements cwd ++ rest)%list).
Proof.
  intros W L readText fuel f stdin r s path cwd HW HF H Hin. destruct (cli_file_run W L readText fuel f stdin r s HF H) as (text & rel & Q).
  unfold parseSchema in Q. destruct (lbDecode L text) as [j|]; [|discriminate]. destruct (decodeNode j) as [n|]; [|discriminate].
  cbn [withDefaultParse set_poRelativeTo cliOptions poFile poHttp] in Q.
  destruct (if fEnabled (cliFile f) then realPaths W (fPaths (cliFile f)) else Some []) as [allowed|] eqn:EA; [|discriminate].
  destruct (rootIds W _) as [relTo rootId]. destruct (negb _); [discriminate|].
  match type of Q with match ?b with _ => _ end = _ => destruct b as [[r0 s0]| |] eqn:EP; try discriminate end. injection Q as -> ->.
  unfold penvOf in EP. cbn [withDefaultParse set_poRelativeTo cliOptions poFile poHttp] in EP. split.
  - intros E. assert (allowed = []). { unfold cliFile in EA. rewrite E in EA. destruct (flOutside f); cbn in EA; congruence. }
    subst allowed. exact (C41_nothing_without_paths _ _ _ _ _ _ _ _ _ _ _ HW EP Hin).
  - intros O C Hh. apply (C41_inside_partial _ _ _ _ _ _ _ _ _ _ _ path cwd HW EP Hin); auto. unfold cliFile. rewrite O. destruct (_ && _)%bool; reflexivity.
Qed.
Print Assumptions C51_files_partial.

Definition refLibs (ref : string) : libs :=
  mkLibs (fun _ => Some (JObj [("$ref", JStr ref)])) (fun _ _ => true) (fun _ _ => "") (fun _ => false)
    (fun _ _ => true) (fun _ => true) (fun _ => true) (fun _ _ => true) (fun _ => true).
Definition askedBy (W : world) (f : flags) (r : res outcome) : option (list access) :=
  match r with Ok (Parsed _ s) => Some (accesses W (cliHttp f) (cliFile f) (pLog s)) | _ => None end.
Definition withHosts (hosts : string) (insecure : bool) : flags := mkFlags "/w/s.json" "" hosts insecure false "" false 10 100 100 1000 2000.
(* The help text of -allowed-hosts says: if empty, http and https resolution will fail.  With
   -allow-insecure alone every host is asked. *)
Theorem C51_empty_hosts_refuted : exists W L readText fuel f, urlLaws W /\ flHosts f = "" /\
  askedBy W f (cliParse W L readText fuel f None) = Some [Request "https://bad.example/s.json"].
Proof.
  exists (demoW "/w" (fun _ => Some emptyNode) (fun _ => None)), (refLibs "https://bad.example/s.json#/a"), (fun _ => Some "{}"), 20%nat, (withHosts "" true).
  split; [apply demoLaws|]. split; [reflexivity|]. vm_compute. reflexivity.
Qed.
Print Assumptions C51_empty_hosts_refuted.
(* for a schema on standard input the fetch flags have no effect *)
Theorem C51_stdin_refuted : forall W L readText fuel f f' stdin, flFile f = "" -> flFile f' = "" ->
  cliParse W L readText fuel f stdin = cliParse W L readText fuel f' stdin.
Proof. intros W L readText fuel f f' stdin H H'. unfold cliParse. rewrite H, H'. reflexivity. Qed.
Print Assumptions C51_stdin_refuted.
Example C51_case :
  let W := demoW "/w" (fun _ => Some emptyNode) (fun _ => None) in let f := withHosts "x.example,good.example" false in
  urlLaws W /\ flFile f <> "" /\
  askedBy W f (cliParse W (refLibs "https://good.example/s.json#/a") (fun _ => Some "{}") 20 f None) = Some [Request "https://good.example/s.json"] /\
  askedBy W f (cliParse W (refLibs "https://bad.example/s.json#/a") (fun _ => Some "{}") 20 f None) = Some [].
Proof. split; [apply demoLaws|]. split; [discriminate|]. split; vm_compute; reflexivity. Qed.

Example C51_case_files :
  let W := demoW "/w" (fun _ => None) (fun _ => Some emptyNode) in let f := mkFlags "/w/s.json" "" "" false false "/w/sub" false 10 100 100 1000 2000 in
  urlLaws W /\ wCwd W = Some "/w" /\ hasChar "#" "/w" = false /\
  askedBy W f (cliParse W (refLibs "file:///w/x.json#/a") (fun _ => Some "{}") 20 f None) = Some [ReadFile "/w/x.json"] /\
  askedBy W f (cliParse W (refLibs "file:///etc/x.json#/a") (fun _ => Some "{}") 20 f None) = Some [].
Proof. split; [apply demoLaws|]. split; [reflexivity|]. split; [reflexivity|]. split; vm_compute; reflexivity. Qed.

(* ------------------------------------------------------------------ C52 *)

Lemma writeRun_own : forall path data k p fs, exists p' fs', writeRun path data (repeat Own k) p fs = (p', fs') /\
  match p with
  | AtStat => match assoc path fs with Some _ => fs' = fs /\ p' <> Done | None => (p' = AtStat \/ p' = AtCreate) /\ fs' = fs \/ p' = AtWrite /\ fs' = massign path "" fs \/ p' = Done /\ fs' = massign path data (massign path "" fs) end
  | AtCreate => p' = AtCreate /\ fs' = fs \/ p' = AtWrite /\ fs' = massign path "" fs \/ p' = Done /\ fs' = massign path data (massign path "" fs)
  | AtWrite => p' = AtWrite /\ fs' = fs \/ p' = Done /\ fs' = massign path (get_or (assoc path fs) "" ++ data) fs
  | Done => p' = Done /\ fs' = fs
  | Refused => p' = Refused /\ fs' = fs
  end.
Proof.
  intros path data. induction k as [|k IH]; intros p fs.
  - exists p, fs. split; [reflexivity|]. destruct p; auto 6. destruct (assoc path fs); [split; [auto|discriminate]|auto].
  - cbn [repeat writeRun]. destruct p; cbn [writeStep].
    + destruct (assoc path fs) eqn:Ea.
      * destruct (IH Refused fs) as (p' & fs' & E & -> & ->). exists Refused, fs. split; [exact E|]. split; [auto|discriminate].
      * destruct (IH AtCreate fs) as (p' & fs' & E & H). exists p', fs'. split; [exact E|]. tauto.
    + destruct (IH AtWrite (massign path "" fs)) as (p' & fs' & E & H). exists p', fs'. split; [exact E|].
      rewrite assoc_massign_same in H. cbn [get_or append] in H. tauto.
    + destruct (IH Done (massign path (get_or (assoc path fs) "" ++ data) fs)) as (p' & fs' & E & -> & ->). exists Done. eexists. split; [exact E|]. auto.
    + destruct (IH Done fs) as (p' & fs' & E & -> & ->). exists Done, fs. auto.
    + destruct (IH Refused fs) as (p' & fs' & E & -> & ->). exists Refused, fs. auto.
Qed.

(* No file that exists when the tool starts writing is changed, wherever the tool is interrupted; and when
   it finishes the output file holds exactly the data.
   Missing from the full statement: other processes writing at the same time; the output file being absent
   or complete after an interruption (both refuted below). *)
Theorem C52_keeps_partial : forall path data k fs name old, assoc name fs = Some old ->
  assoc name (snd (writeRun path data (repeat Own k) AtStat fs)) = Some old.
Proof.
  intros path data k fs name old H. destruct (writeRun_own path data k AtStat fs) as (p' & fs' & E & Q). rewrite E. cbn [snd].
  destruct (assoc path fs) eqn:Ea; [destruct Q as [-> _]; exact H|].
  assert (N : name <> path) by (intros ->; congruence).
  destruct Q as [[_ ->]|[[_ ->]|[_ ->]]]; [exact H| |]; rewrite ?assoc_massign_other by exact N; exact H.
Qed.
Print Assumptions C52_keeps_partial.
Theorem C52_complete : forall path data k fs fs', writeRun path data (repeat Own k) AtStat fs = (Done, fs') -> assoc path fs' = Some data /\ assoc path fs = None.
Proof.
  intros path data k fs fs' H. destruct (writeRun_own path data k AtStat fs) as (p' & fs2 & E & Q). rewrite E in H.
  assert (p' = Done /\ fs2 = fs') by (split; congruence). destruct H0 as [-> ->].
  destruct (assoc path fs) eqn:Ea; [destruct Q as [_ Q]; congruence|]. split; [|reflexivity].
  destruct Q as [[[Q|Q] _]|[[Q _]|[_ ->]]]; try discriminate. apply assoc_massign_same.
Qed.
Print Assumptions C52_complete.
Example C52_case : assoc "a" [("a", "1")] = Some "1" /\ snd (writeRun "b" "data" (repeat Own 3) AtStat [("a", "1")]) = [("a", "1"); ("b", "data")] /\
  writeRun "a" "data" (repeat Own 3) AtStat [("a", "1")] = (Refused, [("a", "1")]).
Proof. auto. Qed.
(* a file created by another process between the check and the creation is lost *)
Theorem C52_race_refuted : exists path data other moves, 
  moves = [Own; Other (massign path other); Own; Own] /\ other <> data /\ assoc path ([] : files) = None /\
  assoc path (snd (writeRun path data moves AtStat [])) = Some data.
Proof. exists "out.json", "{}", "precious". eexists. split; [reflexivity|]. split; [discriminate|]. split; reflexivity. Qed.
Print Assumptions C52_race_refuted.
(* killed between creation and writing, the tool leaves an empty output file *)
Theorem C52_crash_refuted : exists path data k, data <> "" /\ assoc path (snd (writeRun path data (repeat Own k) AtStat [])) = Some "".
Proof. exists "out.json", "{}", 2%nat. split; [discriminate|reflexivity]. Qed.
Print Assumptions C52_crash_refuted.

(* ------------------------------------------------------------------ C53 *)

(* the generation flags are the options used, unless they are zero: zero stands for the library's default *)
Definition intFlags : list ((flags -> Z) * (genOptions -> Z) * Z) :=
  [(flRefDepth, oMaximumReferenceDepth, 10); (flIfAttempts, oMaximumIfAttempts, 100); (flOneOfAttempts, oMaximumOneOfAttempts, 100);
   (flSteps, oMaximumGenerationSteps, 100); (flCutoff, oCutoffGenerationSteps, 2000)].
Theorem C53_flags_partial : forall f flag opt d, In (flag, opt, d) intFlags -> flag f <> 0 -> opt (withDefaults (cliGenOptions f)) = flag f.
Proof.
  intros f flag opt d H N. apply Z.eqb_neq in N.
  cbn in H. repeat (destruct H as [H|H]; [apply pair_equal_spec in H; destruct H as [H _]; apply pair_equal_spec in H; destruct H as [<- <-];
    cbn; unfold getInt; rewrite N; reflexivity|]). destruct H.
Qed.
Print Assumptions C53_flags_partial.
Theorem C53_bypass : forall f, oBypassCyclicReferenceCheck (withDefaults (cliGenOptions f)) = flBypass f.
Proof. intros f. cbn. destruct (flBypass f); reflexivity. Qed.
Print Assumptions C53_bypass.
(* -maximum-reference-depth 0 (no nested reference at all) means 10, and so on *)
Theorem C53_zero_refuted : forall f flag opt d, In (flag, opt, d) intFlags -> flag f = 0 -> opt (withDefaults (cliGenOptions f)) = d /\ d <> 0.
Proof.
  intros f flag opt d H N.
  cbn in H. repeat (destruct H as [H|H]; [apply pair_equal_spec in H; destruct H as [H <-]; apply pair_equal_spec in H; destruct H as [<- <-];
    cbn; unfold getInt; rewrite N; split; [reflexivity|discriminate]|]). destruct H.
Qed.
Print Assumptions C53_zero_refuted.
(* without any flag: the values the help text announces *)
Theorem C53_without_flags : let o := withDefaults (cliGenOptions noFlags) in
  oMaximumReferenceDepth o = 10 /\ oMaximumIfAttempts o = 100 /\ oMaximumOneOfAttempts o = 100 /\
  oMaximumGenerationSteps o = 1000 /\ oCutoffGenerationSteps o = 2000 /\ oBypassCyclicReferenceCheck o = false.
Proof. cbv zeta. repeat split. Qed.
Print Assumptions C53_without_flags.
Example C53_case : In (flSteps, oMaximumGenerationSteps, 100) intFlags /\ flSteps noFlags <> 0 /\ oMaximumGenerationSteps (withDefaults (cliGenOptions noFlags)) = 1000.
Proof. split; [cbn; auto 10|]. split; [discriminate|reflexivity]. Qed.
