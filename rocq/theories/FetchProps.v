(* The fetchers' checks, and that no document is asked for that they did not accept. *)
From Coq Require Import ZArith List String Ascii Bool Lia.
From Verif Require Import Base Float64 Json Schema Util Number Gen Codec PState PFacts RefPath Merge NotMerge Parse ParseKeep DocProps Fetch SpecFetch.
Import ListNotations.
Open Scope string_scope.
Open Scope Z_scope.

(* ------------------------------------------------------------------ paths *)

Lemma stripCommon_app : forall b t b' t', stripCommon b t = (b', t') -> exists c, b = (c ++ b')%list /\ t = (c ++ t')%list.
Proof.
  induction b as [|x b IH]; intros t b' t' H. { exists []. cbn in H. injection H as <- <-. auto. }
  destruct t as [|y t]; cbn in H. { injection H as <- <-. exists []. auto. }
  destruct (String.eqb x y) eqn:Exy.
  - apply String.eqb_eq in Exy. subst y. apply IH in H. destruct H as (c & -> & ->). exists (x :: c). auto.
  - injection H as <- <-. exists []. auto.
Qed.

Lemma rel_below : forall base targ, hasDotDot (relPath base targ) = false -> below base targ.
Proof.
  intros base targ H. unfold relPath in H. destruct (stripCommon _ _) as [b t] eqn:Hs.
  apply stripCommon_app in Hs. destruct Hs as (c & Hb & Ht).
  destruct b as [|x b].
  - exists t. rewrite Hb, Ht, app_nil_r. reflexivity.
  - exfalso. revert H. cbn [map List.app]. destruct (map (fun _ => "..") b ++ t)%list as [|y l].
    + cbn. discriminate.
    + cbn [String.concat]. cbn. discriminate.
Qed.

Lemma hash_app : forall c a b, hasChar c (a ++ b) = hasChar c a || hasChar c b.
Proof. induction a as [|x a IH]; intros b; cbn; auto. rewrite IH, orb_assoc. reflexivity. Qed.

Lemma split_hash_first : forall p cur, hasChar "#" cur = true -> exists x l, splitPath cur p = x :: l /\ hasChar "#" x = true.
Proof.
  induction p as [|c p IH]; intros cur H; cbn [splitPath].
  - destruct (String.eqb cur "") eqn:E; [apply String.eqb_eq in E; subst; discriminate|]. eauto.
  - destruct (Ascii.eqb c "/").
    + destruct (String.eqb cur "") eqn:E; [apply String.eqb_eq in E; subst; discriminate|]. eauto.
    + apply IH. rewrite hash_app, H. reflexivity.
Qed.

Lemma split_trunc : forall p cur L rest, splitPath cur p = (L ++ rest)%list -> Forall (fun x => hasChar "#" x = false) L ->
  exists rest', splitPath cur (fst (splitHash p)) = (L ++ rest')%list.
Proof.
  induction p as [|c p IH]; intros cur L rest H HL; cbn [splitHash].
  - cbn [fst]. eauto.
  - destruct (Ascii.eqb c "#") eqn:Ec.
    + cbn [fst]. apply Ascii.eqb_eq in Ec. subst c. cbn [splitPath] in H. cbn in H.
      destruct (split_hash_first p (cur ++ "#")) as (x & l & Hx & Hh). { rewrite hash_app. cbn. apply orb_true_r. }
      change (String "#" "") with "#" in H. rewrite Hx in H.
      destruct L as [|y L]; [cbn; eauto|]. injection H as -> _. inversion HL; subst. congruence.
    + destruct (splitHash p) as [d q]. cbn [fst] in *. cbn [splitPath] in *. destruct (Ascii.eqb c "/").
      * destruct (String.eqb cur "") eqn:E; [eapply IH; eauto|].
        destruct L as [|y L]; [cbn; eauto|]. injection H as -> H. inversion HL; subst.
        apply IH in H; auto. destruct H as [r ->]. exists r. reflexivity.
      * eapply IH; eauto.
Qed.
Lemma split_nohash : forall p cur, hasChar "#" cur = false -> hasChar "#" p = false -> Forall (fun x => hasChar "#" x = false) (splitPath cur p).
Proof.
  induction p as [|c p IH]; intros cur Hc Hp; cbn [splitPath].
  - destruct (String.eqb cur ""); auto.
  - cbn [hasChar] in Hp. apply orb_false_iff in Hp. destruct Hp as [Hp1 Hp]. destruct (Ascii.eqb c "/").
    + destruct (String.eqb cur ""); [apply IH; auto|]. constructor; auto.
    + apply IH; auto. rewrite hash_app, Hc. cbn. rewrite Hp1. reflexivity.
Qed.
Lemma below_trunc : forall dir p, hasChar "#" dir = false -> below dir p -> below dir (fst (splitHash p)).
Proof.
  intros dir p Hd [rest H]. unfold below, elements in *. apply split_trunc in H; auto. apply split_nohash; auto.
Qed.

Lemma refDoc_file : forall p, refDoc ("file://" ++ p) = "" \/ refDoc ("file://" ++ p) = "file://" ++ fst (splitHash p).
Proof.
  intros p. unfold refDoc, matchRef. cbn [splitHash append]. cbn. destruct (splitHash p) as [d q]. cbn [fst].
  destruct (hasChar "010" q); auto.
Qed.
Lemma trim_file : forall p, trimPrefix "file://" ("file://" ++ p) = p.
Proof. reflexivity. Qed.

(* ------------------------------------------------------------------ one fetcher *)
Section Checks.
Variable W : world.
Hypothesis Hlaws : urlLaws W.
Variable h : httpOpts.
Variable f : fileOpts.
Variable allowed : list string.

Definition okUrl (v : wUrl W) : Prop :=
  (hInsecure h = true \/ wScheme W v = "https") /\ (hHosts h = [] \/ In (wHost W v) (hHosts h)).

Lemma httpAllowed_same : httpAllowed W h = hHosts h.
Proof. unfold httpAllowed. rewrite <- (map_id (hHosts h)) at 2. apply map_ext. intros a. destruct (wParse W a); reflexivity. Qed.

Lemma httpResolve_ok : forall a b c, httpResolve W h a b = Some c ->
  exists v pb, isUrl W v /\ c = wString W v /\ okUrl v /\ wParse W b = Some pb /\
    (wScheme W v = wScheme W pb \/ (wScheme W pb = "" /\ (wScheme W v = "http" \/ wScheme W v = "https"))).
Proof.
  intros a b c H. unfold httpResolve in H. rewrite httpAllowed_same in H.
  destruct (wParse W b) as [pb|] eqn:Hb; [|discriminate]. destruct (wParse W a) as [ba|] eqn:Ha; [|discriminate].
  match type of H with context [wString W ?x] => set (v := x) in * end.
  destruct (negb (hInsecure h) && negb (String.eqb (wScheme W v) "https")) eqn:H1; [discriminate|].
  destruct ((0 <? Z.of_nat (List.length (hHosts h))) && negb (mem_string (wHost W v) (hHosts h))) eqn:H2; [discriminate|].
  injection H as <-. exists v, pb.
  split. { subst v. destruct (_ || _); [apply isResolved; eapply isParsed; eauto|eapply isParsed; eauto]. }
  split; [reflexivity|]. split.
  { split.
    - destruct (hInsecure h); [auto|]. cbn [negb andb] in H1. apply negb_false_iff, String.eqb_eq in H1. auto.
    - destruct (hHosts h) as [|x l]; [auto|]. right. apply andb_false_iff in H2. destruct H2 as [H2|H2].
      + apply Z.ltb_ge in H2. cbn [List.length] in H2. lia.
      + apply negb_false_iff, mem_string_In in H2. exact H2. }
  split; [reflexivity|]. subst v. destruct (String.eqb (wScheme W ba) "http" || String.eqb (wScheme W ba) "https") eqn:Hs; [|auto].
  rewrite (resolveScheme W Hlaws). destruct (String.eqb (wScheme W pb) "") eqn:Hp; [|auto].
  right. apply String.eqb_eq in Hp. split; auto. apply orb_prop in Hs. destruct Hs as [Hs|Hs]; apply String.eqb_eq in Hs; auto.
Qed.

Lemma fileResolve_ok : forall o a b c, fileResolve W o allowed a b = Some c ->
  allowed <> [] /\ exists path, c = "file://" ++ path /\ (o = true \/ exists cwd, wCwd W = Some cwd /\ below cwd path).
Proof.
  intros o a b c H. unfold fileResolve in H. destruct (wParse W b); [|discriminate].
  destruct (_ && _); [discriminate|]. destruct (wRealPath W _) as [path|]; [|discriminate].
  destruct (if negb o then outsideCwd W path else Some false) as [[]|] eqn:Ho; try discriminate.
  destruct (outsideAllowed W path allowed) as [[]|] eqn:Hl; try discriminate.
  split. { intros Ha. rewrite Ha in Hl. cbn in Hl. discriminate Hl. }
  injection H as <-. exists path. split; [reflexivity|]. destruct o; [auto|]. right. cbn [negb] in Ho.
  unfold outsideCwd in Ho. destruct (wCwd W) as [cwd|]; [|discriminate]. exists cwd. split; auto. apply rel_below. congruence.
Qed.

Lemma forScheme_http : forall s, forScheme h f s = Some FHttp -> s = "http" \/ s = "https".
Proof.
  intros s H. unfold forScheme in H. destruct (hEnabled h && _) eqn:Hs.
  - apply andb_prop in Hs. destruct Hs as [_ Hs]. apply orb_prop in Hs. destruct Hs as [Hs|Hs]; apply String.eqb_eq in Hs; auto.
  - destruct (fEnabled f && String.eqb s "file"); discriminate H.
Qed.
Lemma forScheme_file : forall s, forScheme h f s = Some FFile -> s = "file".
Proof.
  intros s H. unfold forScheme in H. destruct (hEnabled h && _); [discriminate|].
  destruct (fEnabled f && String.eqb s "file") eqn:Hs; [|discriminate]. apply andb_prop in Hs. destruct Hs as [_ Hs]. apply String.eqb_eq in Hs. auto.
Qed.

(* the fetcher chosen for an id that has a scheme *)
Lemma fetcherFor_scheme : forall p t v, wParse W t = Some v -> wScheme W v <> "" -> fetcherFor W h f p t = forScheme h f (wScheme W v).
Proof. intros p t v H Hs. unfold fetcherFor. rewrite H. apply String.eqb_neq in Hs. rewrite Hs. reflexivity. Qed.

Lemma resolveId_cases : forall p a b c, resolveId W h f allowed p a b = Some c ->
  (fetcherFor W h f p b = Some FHttp /\ httpResolve W h a b = Some c) \/
  (fetcherFor W h f p b = Some FFile /\ fileResolve W (fOutside f) allowed a b = Some c).
Proof. intros p a b c H. unfold resolveId in H. destruct (fetcherFor W h f p b) as [[]|]; [auto|auto|discriminate]. Qed.

(* an id accepted by the file fetcher is fetched by the file fetcher *)
Lemma file_id_file : forall o a b c p, fileResolve W o allowed a b = Some c -> refDoc c <> "" -> fetcherFor W h f p (refDoc c) <> Some FHttp.
Proof.
  intros o a b c p H Hne Hf. apply fileResolve_ok in H. destruct H as [_ (path & -> & _)].
  destruct (refDoc_file path) as [Hr|Hr]; [congruence|]. rewrite Hr in *. unfold fetcherFor in Hf.
  destruct (wParse W _) as [v|] eqn:Hv; [|discriminate]. apply (fileScheme W Hlaws) in Hv. rewrite Hv in Hf. cbn in Hf.
  apply forScheme_http in Hf. destruct Hf; discriminate.
Qed.

(* requests *)
Lemma request_ok : forall E p id, okFetch (withFetchers W h f allowed E) (p, id) ->
  fetcherFor W h f p id = Some FHttp -> httpPermits W h id.
Proof.
  intros E p id (_ & Hne & c & Hid & Hc) Hf. cbn [fst snd] in *.
  assert (Hc' : exists p' a b, resolveId W h f allowed p' a b = Some c).
  { destruct Hc as [(a & b & Hc)|[(p' & a & b & Hc) _]]; cbn in Hc; eauto. }
  clear Hc. destruct Hc' as (p' & a & b & Hc). apply resolveId_cases in Hc. destruct Hc as [[_ Hc]|[_ Hc]].
  - apply httpResolve_ok in Hc. destruct Hc as (v & pb & Hv & -> & Hok & _).
    destruct (readBack W Hlaws v id Hv (or_intror Hid) Hne) as (v' & Hp & Hs & Hh).
    exists v'. unfold okUrl in Hok. rewrite Hs, Hh. auto.
  - subst id. exfalso. eapply file_id_file; eauto.
Qed.

(* files *)
Lemma file_ok : forall E p id, okFetch (withFetchers W h f allowed E) (p, id) ->
  fetcherFor W h f p id = Some FFile ->
  exists path, id = "file://" ++ fst (splitHash path) /\ allowed <> [] /\
    (fOutside f = true \/ exists cwd, wCwd W = Some cwd /\ below cwd path).
Proof.
  intros E p id (_ & Hne & c & Hid & Hc) Hf. cbn [fst snd] in *.
  assert (Hcf : forall p' a b, fetcherFor W h f p' b = Some FFile -> fileResolve W (fOutside f) allowed a b = Some c ->
     exists path, id = "file://" ++ fst (splitHash path) /\ allowed <> [] /\
    (fOutside f = true \/ exists cwd, wCwd W = Some cwd /\ below cwd path)).
  { intros p' a b _ H. apply fileResolve_ok in H. destruct H as [Ha (path & -> & H)].
    exists path. destruct (refDoc_file path) as [Hr|Hr]; [congruence|]. split; [congruence|auto]. }
  (* an id accepted by the http fetcher has an http scheme, or none and the document being parsed has one *)
  assert (Hch : forall p' a b, fetcherFor W h f p' b = Some FHttp -> httpResolve W h a b = Some c ->
     exists v, isUrl W v /\ c = wString W v /\
       (wScheme W v = "http" \/ wScheme W v = "https" \/
        (wScheme W v = "" /\ exists v0, wParse W p' = Some v0 /\ (wScheme W v0 = "http" \/ wScheme W v0 = "https")))).
  { intros p' a b H1 H2. apply httpResolve_ok in H2. destruct H2 as (v & pb & Hv & -> & _ & Hb & Hs).
    exists v. split; [exact Hv|]. split; [reflexivity|].
    unfold fetcherFor in H1. rewrite Hb in H1. destruct (String.eqb (wScheme W pb) "") eqn:Hpb.
    - apply String.eqb_eq in Hpb. destruct Hs as [Hs|[_ Hs]]; [|tauto].
      destruct (wParse W p') as [v0|] eqn:Hp'; [|discriminate].
      destruct (String.eqb (wScheme W v0) "") eqn:Hv0; [discriminate|]. apply forScheme_http in H1.
      right. right. split; [congruence|]. eauto.
    - apply forScheme_http in H1. apply String.eqb_neq in Hpb. destruct Hs as [Hs|[Hs _]]; [|contradiction]. rewrite Hs. tauto. }
  assert (Hno : forall v, isUrl W v -> c = wString W v -> wScheme W v = "http" \/ wScheme W v = "https" -> False).
  { intros v Hv -> Hs. destruct (readBack W Hlaws v id Hv (or_intror Hid) Hne) as (v' & Hp & Hs' & _).
    assert (Hn : wScheme W v' <> "") by (rewrite Hs'; destruct Hs as [Hs|Hs]; rewrite Hs; discriminate).
    rewrite (fetcherFor_scheme p id v' Hp Hn) in Hf. apply forScheme_file in Hf. rewrite Hs' in Hf. destruct Hs as [Hs|Hs]; congruence. }
  destruct Hc as [(a & b & Hc)|[(p' & a & b & Hc) Hp]]; cbn in Hc; apply resolveId_cases in Hc.
  - destruct Hc as [[H1 H2]|[H1 H2]]; [|exact (Hcf _ _ _ H1 H2)]. exfalso.
    destruct (Hch _ _ _ H1 H2) as (v & Hv & Hcv & [Hs|[Hs|(Hs & v0 & Hv0 & Hs0)]]); [exact (Hno v Hv Hcv (or_introl Hs))|exact (Hno v Hv Hcv (or_intror Hs))|].
    subst c. destruct (readBack W Hlaws v id Hv (or_intror Hid) Hne) as (v' & Hp & Hs' & _).
    unfold fetcherFor in Hf. rewrite Hp, Hs', Hs in Hf. cbn in Hf. rewrite Hv0 in Hf.
    destruct (String.eqb (wScheme W v0) ""); [discriminate|]. apply forScheme_file in Hf. destruct Hs0; congruence.
  - destruct Hc as [[H1 H2]|[H1 H2]]; [|exact (Hcf _ _ _ H1 H2)]. exfalso.
    destruct (Hch _ _ _ H1 H2) as (v & Hv & Hcv & [Hs|[Hs|(Hs & _)]]); [exact (Hno v Hv Hcv (or_introl Hs))|exact (Hno v Hv Hcv (or_intror Hs))|].
    subst c. destruct (readBack W Hlaws v id Hv (or_intror Hid) Hne) as (v' & Hp' & Hs' & _).
    unfold fetcherFor in Hf. rewrite Hp', Hs', Hs in Hf. cbn in Hf.
    assert (Hpp : exists w, wParse W p = Some w /\ wScheme W w = "").
    { destruct Hp as [->| ->].
      - assert (Hn0 : wString W v <> "") by (intros Hx; rewrite Hx in Hid; apply Hne; rewrite Hid; reflexivity).
        destruct (readBack W Hlaws v (wString W v) Hv (or_introl eq_refl) Hn0) as (w & Hw & Hsw & _). exists w. split; congruence.
      - exists v'. split; congruence. }
    destruct Hpp as (w & Hw & Hsw). rewrite Hw, Hsw in Hf. discriminate.
Qed.


Lemma accesses_In : forall log a, In a (accesses W h f log) -> exists p id, In (p, id) log /\ accessOf W h f p id = Some a.
Proof.
  induction log as [|[p id] log IH]; cbn [accesses]; intros a H; [contradiction|].
  destruct (accessOf W h f p id) as [x|] eqn:Hx.
  - destruct H as [->|H]. { exists p, id. split; [left|]; auto. } apply IH in H. destruct H as (p' & id' & H & H'). exists p', id'. split; [right|]; auto.
  - apply IH in H. destruct H as (p' & id' & H & H'). exists p', id'. split; [right|]; auto.
Qed.

Lemma parse_accesses : forall E fuel parsing rootId n r s' a,
  parseDoc (withFetchers W h f allowed E) fuel parsing rootId n = Ok (r, s') ->
  In a (accesses W h f (pLog s')) ->
  match a with
  | Request u => httpPermits W h u
  | ReadFile path => allowed <> [] /\ exists full, path = fst (splitHash full) /\
      (fOutside f = true \/ exists cwd, wCwd W = Some cwd /\ below cwd full)
  end.
Proof.
  intros E fuel parsing rootId n r s' a H Ha. apply parseDoc_inv in H. destruct H as [_ _ _ _ _ _ _ Hlog].
  apply accesses_In in Ha. destruct Ha as (p & id & Hin & Ha).
  rewrite Forall_forall in Hlog. apply Hlog in Hin. unfold accessOf in Ha.
  destruct (fetcherFor W h f p id) as [[]|] eqn:Hf; [| |discriminate]; injection Ha as <-.
  - exact (request_ok E p id Hin Hf).
  - apply (fun o => file_ok E p id o Hf) in Hin. destruct Hin as (path & -> & Hal & Hp). rewrite trim_file. split; [exact Hal|]. exists path. auto.
Qed.
End Checks.
