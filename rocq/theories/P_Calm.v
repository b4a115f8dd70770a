(* C56: parsing does not panic. *)
From Coq Require Import ZArith List String Ascii Bool Lia.
From Verif Require Import Base Float64 Json Schema NodeFacts Util Number Options Gen Codec PState PFacts RefPath Merge NotMerge Parse Regen Fetch Api SpecCalm Calm.
Import ListNotations.
Open Scope string_scope.
Open Scope Z_scope.

(* Parsing a decoded document never panics, whatever else the outside world and the libraries answer and
   however long it takes: for documents, and documents that can be fetched, whose references are plain
   pointers ("#", "doc", "#/definitions/a/properties/b"; none passes through items, allOf or another risky
   keyword) and whose negated schemas contain neither references nor uniqueItems, and document names without
   '#'.  Missing from the full statement: the other documents, of which the theorems below show that some
   do make it panic. *)
Theorem C56_documents_partial : forall E fuel parsing rootId n w,
  calm n -> plainIds n -> (forall p d m, pxFetch E p d = Some m -> calm m /\ plainIds m) ->
  (forall p scope doc d, pxResolveId E p scope doc = Some d -> pointerOf d = "") -> pointerOf parsing = "" -> pointerOf rootId = "" ->
  parseDoc E fuel parsing rootId n <> Panic w.
Proof. intros E fuel parsing rootId n w Hn Hi Hf Hid Hp Hr. exact (doc_calm E Hid Hf fuel parsing rootId n Hn Hi Hp Hr w). Qed.
Print Assumptions C56_documents_partial.

Lemma pointer_app : forall a b, pointerOf a = "" -> pointerOf (a ++ b) = pointerOf b.
Proof. induction a as [|c a IH]; intros b H; [reflexivity|]. cbn [append pointerOf] in *. destruct (Ascii.eqb c "#"); [discriminate H|auto]. Qed.
Lemma rootIds_plain : forall W o, pointerOf (poRelativeTo o) = "" -> (forall d, wCwd W = Some d -> pointerOf d = "") ->
  pointerOf (fst (rootIds W (withDefaultParse o))) = "" /\ pointerOf (snd (rootIds W (withDefaultParse o))) = "".
Proof.
  intros W o Hr Hc. unfold rootIds. change (poRelativeTo (withDefaultParse o)) with (poRelativeTo o). destruct (String.eqb (poRelativeTo o) ""); [|auto].
  destruct (wCwd W) as [d|]; [|split; reflexivity]. specialize (Hc d eq_refl). cbn [fst snd].
  split; [rewrite pointer_app by reflexivity; rewrite pointer_app by exact Hc; reflexivity|].
  rewrite pointer_app by reflexivity. rewrite pointer_app by (destruct (String.eqb d "/"); auto). reflexivity.
Qed.

(* The same for ParseSchema on any text and any options. *)
Theorem C56_parse_partial : forall W L fuel text o w,
  (forall j n, lbDecode L text = Some j -> decodeNode j = Some n -> calm n /\ plainIds n) ->
  (forall u m, wGet W u = Some m \/ wRead W u = Some m -> calm m /\ plainIds m) ->
  (forall allowed p scope doc d, resolveId W (poHttp o) (poFile o) allowed p scope doc = Some d -> pointerOf d = "") ->
  pointerOf (poRelativeTo o) = "" -> (forall d, wCwd W = Some d -> pointerOf d = "") ->
  parseSchema W L fuel text o <> Panic w.
Proof.
  intros W L fuel text o w Hd Hf Hid Hr Hc. unfold parseSchema. destruct (lbDecode L text) as [j|]; [|discriminate]. destruct (decodeNode j) as [n|] eqn:En; [|discriminate].
  destruct (Hd j n eq_refl En) as [Cn Pn].
  destruct (if fEnabled (poFile (withDefaultParse o)) then _ else _) as [allowed|]; [|discriminate].
  pose proof (rootIds_plain W o Hr Hc) as R.
  destruct (rootIds W (withDefaultParse o)) as [rel rid]. destruct R as [R1 R2]. cbn [fst snd] in R1, R2. destruct (negb (lbResource L rel j)); [discriminate|].
  pose proof (C56_documents_partial (penvOf W L (withDefaultParse o) allowed) fuel rel rid n) as K.
  destruct (parseDoc _ _ _ _ _) as [[r s]|w'|]; [discriminate| |discriminate]. exfalso. apply (K w'); auto.
  - intros p d m F. cbn [pxFetch penvOf withFetchers] in F. unfold fetchId in F. destruct (accessOf _ _ _ _ _) as [[u|u]|]; [apply (Hf u); auto|apply (Hf u); auto|discriminate F].
  - intros p scope doc d F. exact (Hid _ _ _ _ _ F).
Qed.
Print Assumptions C56_parse_partial.

(* Without fetchers, which is the default, only the text itself matters. *)
Theorem C56_default_partial : forall W L fuel text o w,
  hEnabled (poHttp o) = false -> fEnabled (poFile o) = false -> pointerOf (poRelativeTo o) = "" -> (forall d, wCwd W = Some d -> pointerOf d = "") ->
  (forall j n, lbDecode L text = Some j -> decodeNode j = Some n -> calm n /\ plainIds n) ->
  parseSchema W L fuel text o <> Panic w.
Proof.
  intros W L fuel text o w Hh Hf Hr Hc Hd. unfold parseSchema. destruct (lbDecode L text) as [j|]; [|discriminate]. destruct (decodeNode j) as [n|] eqn:En; [|discriminate].
  change (poFile (withDefaultParse o)) with (poFile o). rewrite Hf. destruct (Hd j n eq_refl En) as [Cn Pn].
  pose proof (rootIds_plain W o Hr Hc) as R. destruct (rootIds W (withDefaultParse o)) as [rel rid]. destruct R as [R1 R2]. cbn [fst snd] in R1, R2.
  destruct (negb (lbResource L rel j)); [discriminate|].
  assert (N : forall p d, fetcherFor W (poHttp o) (poFile o) p d = None).
  { intros p d. unfold fetcherFor, forScheme. rewrite Hh, Hf. cbn [andb]. destruct (wParse W d); [|reflexivity]. destruct (String.eqb _ _); [|reflexivity]. destruct (wParse W p); [|reflexivity]. destruct (String.eqb _ _); reflexivity. }
  pose proof (C56_documents_partial (penvOf W L (withDefaultParse o) []) fuel rel rid n) as K.
  destruct (parseDoc _ _ _ _ _) as [[r s]|w'|]; [discriminate| |discriminate]. exfalso. apply (K w'); auto.
  - intros p d m F. cbn [pxFetch penvOf withFetchers withDefaultParse poHttp poFile] in F. unfold fetchId, accessOf in F. rewrite N in F. discriminate F.
  - intros p scope doc d F. cbn [pxResolveId penvOf withFetchers withDefaultParse poHttp poFile] in F. unfold resolveId in F. rewrite N in F. discriminate F.
Qed.
Print Assumptions C56_default_partial.

(* A schema that qualifies: {"allOf": [{"$ref": "#/$defs/name"}, {"minLength": 2}], "not": {"const": "no"},
   "$defs": {"name": {"$id": "name.json", "type": "string"}}} *)
Definition namedSchema : json :=
  JObj [("allOf", JArr [JObj [("$ref", JStr "#/$defs/name")]; JObj [("minLength", JInt 2)]]); ("not", JObj [("const", JStr "no")]);
        ("$defs", JObj [("name", JObj [("$id", JStr "name.json"); ("type", JStr "string")])])].
Definition world0 : world :=
  mkW unit (fun _ => "") (fun _ => "") (fun _ => "") (fun _ => None) (fun _ v => v) (fun _ => false) (fun _ p => p)
    (fun p => Some p) (Some "/") (fun _ _ => Some false) (fun _ => None) (fun _ => None).
Definition decoding (j : json) : libs :=
  mkLibs (fun _ => Some j) (fun _ _ => true) (fun _ _ => "") (fun _ => false) (fun _ _ => true) (fun _ => true) (fun _ => true) (fun _ _ => true) (fun _ => true).
Definition fromFile : parserOptions := set_poRelativeTo "file:///w/s.json" noOptions.
(* every object of a text with its pointer *)
Fixpoint objects (j : json) (p : string) : list (string * list (string * json)) :=
  match j with
  | JObj m => (p, m) :: (fix members (l : list (string * json)) := match l with
      | [] => []
      | (k, v) :: r => (objects v (p ++ "/" ++ k) ++
          match v with
          | JArr xs => (fix elems (xs : list json) (i : nat) := match xs with [] => [] | x :: xs' => objects x (p ++ "/" ++ k ++ "/" ++ itoa (Z.of_nat i)) ++ elems xs' (S i) end) xs O
          | _ => []
          end ++ members r)%list
      end) m
  | _ => []
  end%list.
Lemma objects_all : forall j p q m, objectAt j p q m -> In (q, m) (objects j p).
Proof.
  intros j p q m H. induction H.
  - left. reflexivity.
  - cbn [objects]. right. induction l as [|[k0 v0] l IH]; [destruct H|]. rewrite !in_app_iff. destruct H as [E|H]; [injection E as -> ->; left; exact IHobjectAt|right; right; exact (IH H)].
  - cbn [objects]. right. induction l as [|[k0 v0] l IH]; [destruct H|]. rewrite !in_app_iff. destruct H as [E|H]; [|right; right; exact (IH H)].
    injection E as -> ->. right. left. clear IH H1. revert IHobjectAt H0.
    assert (G : forall j, In (q, m) (objects v (p ++ "/" ++ k ++ "/" ++ itoa (Z.of_nat (i + j)))) -> nth_error xs i = Some v ->
      In (q, m) ((fix elems (xs : list json) (i : nat) := match xs with [] => [] | x :: xs' => (objects x (p ++ "/" ++ k ++ "/" ++ itoa (Z.of_nat i)) ++ elems xs' (S i))%list end) xs j)).
    { revert i. induction xs as [|x xs IH]; intros [|i] j Hi Hn; try discriminate Hn; rewrite in_app_iff.
      - injection Hn as ->. left. exact Hi.
      - right. apply (IH i); [|exact Hn]. replace (i + S j)%nat with (S i + j)%nat by lia. exact Hi. }
    intros Hi Hn. apply (G O); [|exact Hn]. rewrite Nat.add_0_r. exact Hi.
Qed.
Lemma calm_by : forall n, calmNode n -> (forall c, In c (subnodes n) -> calm c) -> calm n.
Proof. intros n T H m W. destruct W as [n|n c d Hc Hd]; auto. exact (H c Hc d Hd). Qed.
Definition unriskyP (p : string) : bool := forallb (fun w => negb (existsb (String.eqb w) (segments p))) risky.
Lemma unrisky : forall p, unriskyP p = true -> forall w, In w risky -> ~ In w (segments p).
Proof.
  intros p H w Hw Hin. unfold unriskyP in H. rewrite forallb_forall in H. specialize (H w Hw). apply negb_true_iff in H.
  assert (X : existsb (String.eqb w) (segments p) = true) by (apply existsb_exists; exists w; split; [exact Hin|apply String.eqb_refl]). congruence.
Qed.
Lemma clean_by : forall x, lcc x -> subnodes x = [] -> clean x.
Proof. intros x L S m W. destruct W as [n|n c d Hc Hd]; auto. rewrite S in Hc. destruct Hc. Qed.
Example C56_case : exists n, decodeNode namedSchema = Some n /\ calm n /\ plainIds n /\ pointerOf (poRelativeTo fromFile) = "" /\
  exists g s, parseSchema world0 (decoding namedSchema) 40 "" fromFile = Ok (Parsed (Good g) s) /\ pErrs s = [].
Proof.
  eexists. split; [vm_compute; reflexivity|]. split; [|split; [|split; [reflexivity|]]].
  - apply calm_by.
    + split; [intros r X; discriminate X|]. intros x [[<-|[]]|[]]. apply clean_by; [split; reflexivity|reflexivity].
    + intros c Hc. cbn in Hc. destruct Hc as [<-|[<-|[<-|[<-|[]]]]]; (apply calm_by; [|intros c []]); split; try (intros x [[]|[]]); intros r X; try discriminate X.
      injection X as <-. right. split; [right; exists "$defs/name"; reflexivity|]. apply unrisky. vm_compute. reflexivity.
  - intros p m i H A. apply objects_all in H. vm_compute in H.
    repeat match type of H with _ \/ _ => destruct H as [H|H] end; try (injection H as <- <-; discriminate A); try contradiction.
    injection H as <- <-. right. split; [right; exists "$defs/name"; reflexivity|]. apply unrisky. vm_compute. reflexivity.
  - assert (R : match parseSchema world0 (decoding namedSchema) 40 "" fromFile with Ok (Parsed (Good g) s) => match pErrs s with [] => true | _ => false end | _ => false end = true) by (vm_compute; reflexivity).
    revert R. generalize (parseSchema world0 (decoding namedSchema) 40 "" fromFile). intros [[w|[g|e] s]| |] R; try discriminate R. exists g, s. split; [reflexivity|]. destruct (pErrs s); [reflexivity|discriminate R].
Qed.

(* The full statement is false.  {"uniqueItems": true, "not": {"uniqueItems": true}} makes ParseSchema panic. *)
Theorem C56_unique_items_refuted : exists W L fuel text o w,
  lbDecode L text = Some (JObj [("uniqueItems", JBool true); ("not", JObj [("uniqueItems", JBool true)])]) /\ o = noOptions /\
  parseSchema W L fuel text o = Panic w.
Proof. exists world0, (decoding (JObj [("uniqueItems", JBool true); ("not", JObj [("uniqueItems", JBool true)])])), 40%nat, "", noOptions. eexists. split; [reflexivity|]. split; [reflexivity|]. vm_compute. reflexivity. Qed.
Print Assumptions C56_unique_items_refuted.

(* So does a reference below allOf to a position a tuple does not have, for a schema read from a file:
   {"prefixItems": [{"type": "string"}], "allOf": [{"$ref": "#/prefixItems/1"}]}. *)
Definition beyond : json := JObj [("prefixItems", JArr [JObj [("type", JStr "string")]]); ("allOf", JArr [JObj [("$ref", JStr "#/prefixItems/1")]])].
Theorem C56_position_refuted : exists W L fuel text o w,
  lbDecode L text = Some beyond /\ o = set_poRelativeTo "file:///w/s.json" noOptions /\ parseSchema W L fuel text o = Panic w.
Proof. exists world0, (decoding beyond), 40%nat, "", fromFile. eexists. split; [reflexivity|]. split; [reflexivity|]. vm_compute. reflexivity. Qed.
Print Assumptions C56_position_refuted.
