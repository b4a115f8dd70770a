(* Facts about reference_path.go: which schema a pointer resolves to. *)
From Coq Require Import ZArith List String Ascii Bool Lia Decimal DecimalZ.
From Verif Require Import Base Float64 Json Schema Util Number PState RefPath SpecRef.
Import ListNotations.
Open Scope string_scope.
Open Scope Z_scope.

(* ------------------------------------------------------------------ fuel *)
Lemma refToken_short : forall p, (String.length (snd (refToken p)) <= String.length p)%nat /\
  (snd (refToken p) <> "" -> (String.length (snd (refToken p)) < String.length p)%nat).
Proof.
  induction p as [|c r [IH1 IH2]]; [cbn; split; [lia|congruence]|]. cbn [refToken]. destruct (Ascii.eqb c "/").
  - cbn. split; intros; lia.
  - destruct (refToken r) as [t rest]. cbn in *. split; intros; lia.
Qed.
Lemma resolve_time : forall f o p, (String.length p < f)%nat -> resolveSubF f o p <> Timeout.
Proof.
  induction f as [|f IH]; intros o p L; [lia|]. cbn [resolveSubF]. destruct o as [n|]; [|discriminate].
  pose proof (refToken_short p) as [S1 S2]. destruct (refToken p) as [part rest]. cbn [snd] in *.
  destruct (String.eqb_spec rest "") as [|N]; [discriminate|]. specialize (S2 N).
  assert (A : forall o, resolveSubF f o rest <> Timeout) by (intros; apply IH; lia).
  pose proof (refToken_short rest) as [T1 _].
  assert (B : forall o, resolveSubF f o (snd (refToken rest)) <> Timeout) by (intros; apply IH; lia).
  assert (C1 : forall l, refProperty (resolveSubF f) l rest <> Timeout).
  { intros [l|]; cbn; [|discriminate]. destruct (refToken rest) as [a b]. cbn [snd] in *. destruct (assoc a l); [apply B|discriminate]. }
  assert (C2 : forall l, refSlice (resolveSubF f) l rest <> Timeout).
  { intros [l|]; cbn; [|discriminate]. destruct (refToken rest) as [a b]. cbn [snd] in *. destruct (atoi a) as [i|]; [|discriminate].
    destruct (_ || _); [discriminate|]. destruct (nth_error l (Z.to_nat i)); [apply B|discriminate]. }
  assert (C3 : forall d, refNof (resolveSubF f) d rest <> Timeout).
  { intros [d|]; cbn; [|discriminate]. destruct (nofFalse d); [discriminate|apply A]. }
  unfold refCase. repeat (match goal with |- (if ?b then _ else _) <> _ => destruct b end; auto); try discriminate.
  unfold refItems. destruct (sItems n) as [d|]; [|discriminate]. destruct (isNumber _); auto.
Qed.
Lemma resolveSub_time : forall o p, resolveSub o p <> Timeout.
Proof. intros. apply resolve_time. lia. Qed.

(* ------------------------------------------------------------------ tokens *)
Definition noSlash (x : string) : Prop := ~ In "/"%char (list_ascii_of_string x).
Lemma refToken_app : forall x r, noSlash x -> refToken (x ++ String "/" r) = (x, r).
Proof.
  induction x as [|c x IH]; intros r H; [reflexivity|]. cbn [append refToken].
  destruct (Ascii.eqb_spec c "/") as [->|N]; [exfalso; apply H; cbn; auto|]. rewrite IH; [reflexivity|]. intros I. apply H. cbn. auto.
Qed.
Lemma refToken_end : forall x, noSlash x -> refToken x = (x, "").
Proof.
  induction x as [|c x IH]; intros H; [reflexivity|]. cbn [refToken].
  destruct (Ascii.eqb_spec c "/") as [->|N]; [exfalso; apply H; cbn; auto|]. rewrite IH; [reflexivity|]. intros I. apply H. cbn. auto.
Qed.
Lemma append_assoc : forall a b c : string, (a ++ b) ++ c = a ++ (b ++ c).
Proof. induction a; intros; cbn; [reflexivity|]. f_equal. auto. Qed.
Lemma append_nil : forall a : string, a ++ "" = a.
Proof. induction a; cbn; [reflexivity|]. f_equal. auto. Qed.
Lemma length_app : forall a b : string, String.length (a ++ b) = (String.length a + String.length b)%nat.
Proof. induction a; intros; cbn; [reflexivity|]. f_equal. auto. Qed.

(* the pointer without its leading slash *)
Definition body (l : list step) : string := match l with [] => "" | s :: r => written s ++ pointer r end.
Lemma pointer_body : forall l, l <> [] -> pointer l = String "/" (body l).
Proof. intros [|s r] H; [congruence|reflexivity]. Qed.
Lemma token_then : forall x l, noSlash x -> refToken (x ++ pointer l) = (x, body l).
Proof.
  intros x l H. destruct l as [|s r]; [cbn [pointer body]; rewrite append_nil; apply refToken_end; auto|].
  rewrite (pointer_body (s :: r)) by discriminate. apply refToken_app; auto.
Qed.
Ltac kw H := repeat (destruct H as [<-|H]; [|]); try (destruct H).
Lemma kw_noSlash : forall k, In k ["additionalProperties"; "items"; "contains"; "additionalItems"; "unevaluatedItems"; "not"; "if"; "then"; "else";
    "properties"; "patternProperties"; "definitions"; "$defs"; "prefixItems"; "allOf"; "anyOf"; "oneOf"] -> noSlash k.
Proof. intros k H I. cbn in H. kw H; cbn in I; intuition discriminate. Qed.
Lemma written_nonempty : forall s r, wellFormed s -> written s ++ r <> "".
Proof.
  intros [k|k x|k i] r H E; cbn in H; [|destruct H as [H _]|]; kw H; discriminate.
Qed.
Lemma body_nonempty : forall l, l <> [] -> Forall wellFormed l -> body l <> "".
Proof. intros [|s r] H F; [congruence|]. inversion F; subst. apply written_nonempty; auto. Qed.

(* ------------------------------------------------------------------ one step *)
(* a keyword whose value is looked at without a check *)
Definition unchecked (n : schemaNode) (k : string) : Prop :=
  (k = "additionalProperties" /\ sAdditionalProperties n = None) \/ (k = "items" /\ sItems n = None) \/
  (k = "additionalItems" /\ sAdditionalItems n = None) \/ (k = "unevaluatedItems" /\ sUnevaluatedItems n = None).

Lemma step_into : forall f n k p, wellFormed (Into k) -> isNumber (fst (refToken p)) = false -> p <> "" ->
  (unchecked n k /\ resolveSubF (S f) (Some n) (k ++ String "/" p) = Panic "nil pointer dereference") \/
  (single n k = None /\ exists e, resolveSubF (S f) (Some n) (k ++ String "/" p) = match f with O => Timeout | _ => Ok (Bad e) end) \/
  (single n k = None /\ exists e, resolveSubF (S f) (Some n) (k ++ String "/" p) = Ok (Bad e)) \/
  (exists c, single n k = Some c /\ resolveSubF (S f) (Some n) (k ++ String "/" p) = resolveSubF f (Some c) p).
Proof.
  intros f n k p W N NE. cbn [resolveSubF]. rewrite refToken_app; [|apply kw_noSlash; cbn in W |- *; tauto].
  destruct (String.eqb_spec p "") as [|_]; [congruence|].
  assert (NO : forall o, (o = None /\ exists e, resolveSubF f o p = match f with O => Timeout | _ => Ok (Bad e) end) \/
                         (exists c, o = Some c /\ resolveSubF f o p = resolveSubF f (Some c) p)).
  { intros [c|]; [right; eauto|left]. split; auto. destruct f; cbn; eauto. }
  assert (ND : forall d, (d = None /\ refNof (resolveSubF f) d p = Panic "nil pointer dereference") \/
                         (orFalse d = None /\ exists e, refNof (resolveSubF f) d p = match f with O => Timeout | _ => Ok (Bad e) end) \/
                         (orFalse d = None /\ exists e, refNof (resolveSubF f) d p = Ok (Bad e)) \/
                         (exists c, orFalse d = Some c /\ refNof (resolveSubF f) d p = resolveSubF f (Some c) p)).
  { intros [d|]; [|auto]. right. cbn. destruct (nofFalse d); [right; left; split; eauto|].
    destruct (NO (nofSchema d)) as [[-> (e & H)]|(c & -> & H)]; [left|right; right]; eauto. }
  cbn in W. kw W; unfold refCase; cbn [String.eqb Ascii.eqb Bool.eqb]; unfold single; cbv beta iota; unfold unchecked.
  - destruct (ND (sAdditionalProperties n)) as [[E H]|H]; [left; split; [auto|exact H]|right; exact H].
  - unfold refItems. destruct (sItems n) as [d|]; [|left; split; auto]. rewrite N. right.
    destruct (NO (itNode d)) as [H|H]; [left; exact H|right; right; exact H].
  - right. destruct (NO (sContains n)) as [H|H]; [left; exact H|right; right; exact H].
  - destruct (ND (sAdditionalItems n)) as [[E H]|H]; [left; split; [auto|exact H]|right; exact H].
  - destruct (ND (sUnevaluatedItems n)) as [[E H]|H]; [left; split; [auto|exact H]|right; exact H].
  - right. destruct (NO (sNot n)) as [H|H]; [left; exact H|right; right; exact H].
  - right. destruct (NO (sIf n)) as [H|H]; [left; exact H|right; right; exact H].
  - right. destruct (NO (sThen n)) as [H|H]; [left; exact H|right; right; exact H].
  - right. destruct (NO (sElse n)) as [H|H]; [left; exact H|right; right; exact H].
Qed.

Lemma step_named : forall f n k x l, wellFormed (Named k x) ->
  (down n (Named k x) = None /\ exists e, resolveSubF (S f) (Some n) (k ++ String "/" (x ++ pointer l)) = Ok (Bad e)) \/
  (exists c, down n (Named k x) = Some c /\ resolveSubF (S f) (Some n) (k ++ String "/" (x ++ pointer l)) = resolveSubF f (Some c) (body l)).
Proof.
  intros f n k x l [W [NE NS]]. cbn [resolveSubF]. rewrite refToken_app; [|apply kw_noSlash; cbn in W |- *; tauto].
  destruct (String.eqb_spec (x ++ pointer l) "") as [E|_]; [destruct x; [congruence|discriminate]|].
  assert (NO : forall m, (match m with Some l => assoc x l | None => None end = None /\
                          exists e, refProperty (resolveSubF f) m (x ++ pointer l) = Ok (Bad e)) \/
    (exists c, match m with Some l => assoc x l | None => None end = Some c /\ refProperty (resolveSubF f) m (x ++ pointer l) = resolveSubF f (Some c) (body l))).
  { intros [m|]; [|left; cbn; eauto]. unfold refProperty. rewrite token_then by auto. destruct (assoc x m); [right|left]; eauto. }
  cbn in W. kw W; unfold refCase; cbn [String.eqb Ascii.eqb Bool.eqb down]; unfold named; cbv beta iota; apply NO.
Qed.

(* ------------------------------------------------------------------ several steps *)
Lemma body_token : forall s r, wellFormed s -> isNumber (fst (refToken (body (s :: r)))) = false.
Proof.
  intros s r W. assert (X : exists k, fst (refToken (body (s :: r))) = k /\ (wellFormed (Into k) \/
      In k ["properties"; "patternProperties"; "definitions"; "$defs"; "prefixItems"; "items"; "allOf"; "anyOf"; "oneOf"])).
  { destruct s as [k|k x|k i]; cbn [body written].
    - exists k. rewrite token_then; [auto|apply kw_noSlash; cbn in W |- *; tauto].
    - exists k. destruct W as [W _]. rewrite append_assoc. cbn [append]. rewrite refToken_app; [|apply kw_noSlash; cbn in W |- *; tauto].
      cbn [fst]. split; auto. right. cbn in W |- *. tauto.
    - exists k. rewrite append_assoc. cbn [append]. rewrite refToken_app; [|apply kw_noSlash; cbn in W |- *; tauto].
      cbn [fst]. split; auto. right. cbn in W |- *. tauto. }
  destruct X as (k & -> & [X|X]); cbn in X; kw X; reflexivity.
Qed.
(* a step that uses up the fuel *)
Lemma follow_into : forall f n k r, wellFormed (Into k) -> r <> [] -> Forall wellFormed r -> (String.length (body (Into k :: r)) < f)%nat ->
  (unchecked n k /\ resolveSubF f (Some n) (body (Into k :: r)) = Panic "nil pointer dereference") \/
  (single n k = None /\ exists e, resolveSubF f (Some n) (body (Into k :: r)) = Ok (Bad e)) \/
  (exists c f', single n k = Some c /\ (String.length (body r) < f')%nat /\ resolveSubF f (Some n) (body (Into k :: r)) = resolveSubF f' (Some c) (body r)).
Proof.
  intros f n k r W NE F L. destruct f as [|f]; [lia|].
  assert (E : body (Into k :: r) = k ++ String "/" (body r)) by (cbn [body written]; rewrite pointer_body by auto; reflexivity).
  rewrite E in *. rewrite length_app in L. cbn [String.length] in L.
  assert (N : isNumber (fst (refToken (body r))) = false).
  { destruct r as [|s r]; [congruence|]. inversion F; subst. apply body_token; auto. }
  destruct (step_into f n k (body r) W N (body_nonempty _ NE F)) as [H|[(H1 & e & H2)|[(H1 & e & H2)|(c & H1 & H2)]]]; [auto| | |].
  - right. left. split; auto. exists e. rewrite H2. destruct f; [lia|reflexivity].
  - right. left. eauto.
  - right. right. exists c, f. split; auto. split; [lia|exact H2].
Qed.
Lemma follow_named : forall f n k x r, wellFormed (Named k x) -> (String.length (body (Named k x :: r)) < f)%nat ->
  (down n (Named k x) = None /\ exists e, resolveSubF f (Some n) (body (Named k x :: r)) = Ok (Bad e)) \/
  (exists c f', down n (Named k x) = Some c /\ (String.length (body r) < f')%nat /\
     resolveSubF f (Some n) (body (Named k x :: r)) = resolveSubF f' (Some c) (body r)).
Proof.
  intros f n k x r W L. destruct f as [|f]; [lia|].
  assert (E : body (Named k x :: r) = k ++ String "/" (x ++ pointer r)) by (cbn [body written]; rewrite append_assoc; reflexivity).
  rewrite E in *. rewrite length_app in L. cbn [String.length] in L. rewrite length_app in L.
  assert (LB : (String.length (body r) <= String.length (pointer r))%nat) by (destruct r; cbn; lia).
  destruct (step_named f n k x r W) as [H|(c & H1 & H2)]; [auto|]. right. exists c, f. split; auto. split; [lia|auto].
Qed.

Definition endsNamed (l : list step) : Prop := forall l' k, l <> (l' ++ [Into k])%list.
Lemma endsNamed_tail : forall s l, endsNamed (s :: l) -> endsNamed l.
Proof. intros s l H l' k E. apply (H (s :: l') k). rewrite E. reflexivity. Qed.

(* the way down to a node reached by names and single schemas *)
Lemma follow_prefix : forall l f n r c, Forall wellFormed l -> existsb isIndex l = false -> Forall wellFormed r -> r <> [] \/ endsNamed l ->
  addressed n l = Some c -> (String.length (body (l ++ r)) < f)%nat ->
  exists f', (String.length (body r) < f')%nat /\
    (resolveSubF f (Some n) (body (l ++ r)) = resolveSubF f' (Some c) (body r) \/
     (resolveSubF f (Some n) (body (l ++ r)) = Panic "nil pointer dereference" /\
      exists l1 k l2 d, l = (l1 ++ Into k :: l2)%list /\ addressed n l1 = Some d /\ unchecked d k)).
Proof.
  induction l as [|s l IH]; intros f n r c W NI WR NR A L.
  - injection A as ->. exists f. auto.
  - inversion W as [|? ? W1 W2]; subst. cbn [existsb] in NI. apply orb_false_iff in NI. destruct NI as [NI NI2].
    cbn [addressed] in A. destruct (down n s) as [d|] eqn:D; [|discriminate].
    assert (NR2 : r <> [] \/ endsNamed l) by (destruct NR as [NR|NR]; [auto|right; eapply endsNamed_tail; eauto]).
    destruct s as [k|k x|k i]; [| |discriminate].
    + assert (NE : (l ++ r)%list <> []).
      { intros E. apply app_eq_nil in E. destruct E as [-> ->]. destruct NR as [NR|NR]; [congruence|]. apply (NR [] k). reflexivity. }
      rewrite <- app_comm_cons in L |- *. destruct (follow_into f n k (l ++ r) W1 NE) as [[U H]|[(H & _)|(c' & f' & H1 & H2 & H3)]]; auto.
      * apply Forall_app. auto.
      * exists (S (String.length (body r))). split; [lia|]. right. split; auto. exists [], k, l, n. auto.
      * cbn [down] in D. congruence.
      * cbn [down] in D. assert (c' = d) by congruence. subst c'. rewrite H3.
        destruct (IH f' d r c W2 NI2 WR NR2 A H2) as (f'' & G1 & [G2|(G2 & l1 & k1 & l2 & d1 & -> & G3 & G4)]).
        -- exists f''. auto.
        -- exists f''. split; auto. right. split; auto. exists (Into k :: l1), k1, l2, d1. split; [reflexivity|]. split; auto.
           cbn [addressed down]. rewrite H1. auto.
    + rewrite <- app_comm_cons in L |- *. destruct (follow_named f n k x (l ++ r) W1 L) as [(H & _)|(c' & f' & H1 & H2 & H3)]; [congruence|].
      assert (c' = d) by congruence. subst c'. rewrite H3.
      destruct (IH f' d r c W2 NI2 WR NR2 A H2) as (f'' & G1 & [G2|(G2 & l1 & k1 & l2 & d1 & -> & G3 & G4)]).
      -- exists f''. auto.
      -- exists f''. split; auto. right. split; auto. exists (Named k x :: l1), k1, l2, d1. split; [reflexivity|]. split; auto.
         cbn [addressed]. rewrite H1. auto.
Qed.
Lemma follow_none : forall l f n, Forall wellFormed l -> existsb isIndex l = false -> endsNamed l ->
  addressed n l = None -> (String.length (body l) < f)%nat ->
  (exists e, resolveSubF f (Some n) (body l) = Ok (Bad e)) \/
  (resolveSubF f (Some n) (body l) = Panic "nil pointer dereference" /\
      exists l1 k l2 d, l = (l1 ++ Into k :: l2)%list /\ addressed n l1 = Some d /\ unchecked d k).
Proof.
  induction l as [|s l IH]; intros f n W NI NR A L; [discriminate|].
  inversion W as [|? ? W1 W2]; subst. cbn [existsb] in NI. apply orb_false_iff in NI. destruct NI as [NI NI2].
  pose proof (endsNamed_tail _ _ NR) as NR2. cbn [addressed] in A.
  destruct s as [k|k x|k i]; [| |discriminate].
  - assert (NE : l <> []) by (intros ->; apply (NR [] k); reflexivity).
    destruct (follow_into f n k l W1 NE W2 L) as [[U H]|[(_ & H)|(c' & f' & H1 & H2 & H3)]]; auto.
    + right. split; auto. exists [], k, l, n. auto.
    + cbn [down] in A. rewrite H1 in A. rewrite H3. destruct (IH f' c' W2 NI2 NR2 A H2) as [G|(G & l1 & k1 & l2 & d1 & -> & G3 & G4)]; auto.
      right. split; auto. exists (Into k :: l1), k1, l2, d1. split; [reflexivity|]. split; auto. cbn [addressed down]. rewrite H1. auto.
  - destruct (follow_named f n k x l W1 L) as [(_ & H)|(c' & f' & H1 & H2 & H3)]; [auto|].
    rewrite H1 in A. rewrite H3. destruct (IH f' c' W2 NI2 NR2 A H2) as [G|(G & l1 & k1 & l2 & d1 & -> & G3 & G4)]; auto.
    right. split; auto. exists (Named k x :: l1), k1, l2, d1. split; [reflexivity|]. split; auto. cbn [addressed]. rewrite H1. auto.
Qed.

(* the whole pointer *)
Lemma resolve_root : forall n l, Forall wellFormed l -> exists f, (String.length (body l) < f)%nat /\
  resolveSub (Some n) ("#" ++ pointer l) = resolveSubF f (Some n) (body l).
Proof.
  intros n l W. unfold resolveSub. destruct l as [|s r].
  - exists 2%nat. split; [cbn; lia|reflexivity].
  - rewrite pointer_body by discriminate. cbn [append String.length].
    exists (S (S (String.length (body (s :: r))))). split; [lia|].
    change (String "#" (String "/" (body (s :: r)))) with ("#" ++ String "/" (body (s :: r))).
    cbn [resolveSubF]. rewrite refToken_app by (intros I; cbn in I; intuition discriminate).
    destruct (String.eqb_spec (body (s :: r)) "") as [E|_]; [exfalso; revert E; apply body_nonempty; [discriminate|auto]|].
    unfold refCase. cbn [String.eqb Ascii.eqb Bool.eqb]. reflexivity.
Qed.
Lemma resolves_good : forall n l m, Forall wellFormed l -> existsb isIndex l = false -> endsNamed l -> addressed n l = Some m ->
  resolveSub (Some n) ("#" ++ pointer l) = Ok (Good m) \/
  (resolveSub (Some n) ("#" ++ pointer l) = Panic "nil pointer dereference" /\
   exists l1 k l2 d, l = (l1 ++ Into k :: l2)%list /\ addressed n l1 = Some d /\ unchecked d k).
Proof.
  intros n l m W NI NR A. destruct (resolve_root n l W) as (f & L & ->).
  destruct (follow_prefix l f n [] m W NI) as (f' & L' & H); auto; [rewrite app_nil_r; auto|]. rewrite app_nil_r in H.
  destruct H as [->|H]; [left|right; auto]. destruct f'; [lia|]. reflexivity.
Qed.
Lemma unchecked_single : forall n k, unchecked n k -> single n k = None.
Proof. intros n k [[-> H]|[[-> H]|[[-> H]|[-> H]]]]; cbn; rewrite H; reflexivity. Qed.
Lemma addressed_app : forall l r n, addressed n (l ++ r) = match addressed n l with Some c => addressed c r | None => None end.
Proof. induction l as [|s l IH]; intros; cbn; auto. destruct (down n s); auto. Qed.
Lemma resolves_exactly : forall n l m, Forall wellFormed l -> existsb isIndex l = false -> endsNamed l ->
  (addressed n l = Some m <-> resolveSub (Some n) ("#" ++ pointer l) = Ok (Good m)).
Proof.
  intros n l m W NI NR. split.
  - intros A. destruct (resolves_good n l m W NI NR A) as [H|(_ & l1 & k & l2 & d & -> & A1 & U)]; auto.
    rewrite addressed_app, A1 in A. cbn [addressed down] in A. rewrite unchecked_single in A by auto. discriminate.
  - intros H. destruct (addressed n l) as [m'|] eqn:A.
    + destruct (resolves_good n l m' W NI NR A) as [E|(E & _)]; rewrite E in H; [congruence|discriminate].
    + destruct (resolve_root n l W) as (f & L & E). rewrite E in H.
      destruct (follow_none l f n W NI NR A L) as [(e & X)|(X & _)]; rewrite X in H; discriminate.
Qed.
Lemma resolves_bad : forall n l, Forall wellFormed l -> existsb isIndex l = false -> endsNamed l -> addressed n l = None ->
  (exists e, resolveSub (Some n) ("#" ++ pointer l) = Ok (Bad e)) \/
  (resolveSub (Some n) ("#" ++ pointer l) = Panic "nil pointer dereference" /\
   exists l1 k l2 d, l = (l1 ++ Into k :: l2)%list /\ addressed n l1 = Some d /\ unchecked d k).
Proof.
  intros n l W NI NR A. destruct (resolve_root n l W) as (f & L & ->). apply follow_none; auto.
Qed.

(* a pointer ending in a single-schema keyword resolves to the schema that has the keyword *)
Lemma resolves_parent : forall n l k c, Forall wellFormed (l ++ [Into k]) -> existsb isIndex l = false -> addressed n l = Some c ->
  resolveSub (Some n) ("#" ++ pointer (l ++ [Into k])) = Ok (Good c).
Proof.
  intros n l k c W NI A. destruct (resolve_root n (l ++ [Into k]) W) as (f & L & ->). apply Forall_app in W. destruct W as [W1 W2].
  inversion W2 as [|? ? W3 _]; subst.
  destruct (follow_prefix l f n [Into k] c W1 NI W2) as (f' & L' & [->|(_ & l1 & k1 & l2 & d & -> & A1 & U)]); auto.
  - left. discriminate.
  - destruct f'; [lia|]. cbn [resolveSubF body written pointer]. rewrite append_nil, refToken_end; [reflexivity|].
    apply kw_noSlash. cbn in W3 |- *. tauto.
  - rewrite addressed_app, A1 in A. cbn [addressed down] in A. rewrite unchecked_single in A by auto. discriminate.
Qed.

(* ------------------------------------------------------------------ indices *)
Lemma digitsVal_acc : forall u acc, digitsVal (Zpos acc) (DecimalString.NilEmpty.string_of_uint u) = Some (Zpos (Pos.of_uint_acc u acc)).
Proof.
  induction u; intros acc; cbn [DecimalString.NilEmpty.string_of_uint digitsVal Pos.of_uint_acc]; [reflexivity|..];
    match goal with |- context [isDigit ?c] => change (isDigit c) with true;
      let v := eval compute in (Z.of_nat (nat_of_ascii c)) in change (Z.of_nat (nat_of_ascii c)) with v end; cbv iota;
    rewrite <- IHu; match goal with |- digitsVal ?a _ = digitsVal ?b _ => replace a with b; [reflexivity|lia] end.
Qed.
Lemma digitsVal_uint : forall u, digitsVal 0 (DecimalString.NilEmpty.string_of_uint u) = Some (Z.of_N (Pos.of_uint u)).
Proof.
  induction u; cbn [DecimalString.NilEmpty.string_of_uint digitsVal Pos.of_uint]; [reflexivity|..];
    match goal with |- context [isDigit ?c] => change (isDigit c) with true end; cbv iota;
    [exact IHu|..]; match goal with |- digitsVal ?z _ = Some (Z.of_N (N.pos (Pos.of_uint_acc _ ?a))) => change z with (Zpos a); apply digitsVal_acc end.
Qed.
Lemma allDigits_uint : forall u, allDigits (DecimalString.NilEmpty.string_of_uint u) = true.
Proof. induction u; cbn [DecimalString.NilEmpty.string_of_uint allDigits]; [reflexivity|..]; rewrite IHu; reflexivity. Qed.
Lemma itoa_nat : forall i, exists u, itoa (Z.of_nat i) = DecimalString.NilEmpty.string_of_uint u /\ Z.of_N (Pos.of_uint u) = Z.of_nat i /\
  DecimalString.NilEmpty.string_of_uint u <> "".
Proof.
  intros i. pose proof (DecimalZ.of_to (Z.of_nat i)) as R. unfold itoa.
  destruct (Z.to_int (Z.of_nat i)) as [u|u] eqn:E.
  - exists u. split; [reflexivity|]. split; [exact R|]. destruct i; cbn in E.
    + injection E as <-. discriminate.
    + destruct u; discriminate.
  - exfalso. destruct i; cbn in E; discriminate.
Qed.
Lemma sign_digit : forall s, s <> "" -> allDigits s = true ->
  match s with String c r => if Ascii.eqb c "-" then (true, r) else if Ascii.eqb c "+" then (false, r) else (false, s) | EmptyString => (false, s) end = (false, s).
Proof.
  intros [|c r] N A; [congruence|]. cbn [allDigits] in A. apply andb_prop in A. destruct A as [A _].
  destruct (Ascii.eqb_spec c "-") as [->|]; [discriminate|]. destruct (Ascii.eqb_spec c "+") as [->|]; [discriminate|]. reflexivity.
Qed.
Lemma atoi_itoa : forall i, Z.of_nat i < 2 ^ 63 -> atoi (itoa (Z.of_nat i)) = Some (Z.of_nat i).
Proof.
  intros i L. destruct (itoa_nat i) as (u & -> & R & N). unfold atoi. rewrite sign_digit; auto using allDigits_uint.
  destruct (String.eqb_spec (DecimalString.NilEmpty.string_of_uint u) ""); [congruence|]. rewrite digitsVal_uint, R.
  destruct (Z.leb_spec (- 2 ^ 63) (Z.of_nat i)); [|lia]. destruct (Z.ltb_spec (Z.of_nat i) (2 ^ 63)); [|lia]. reflexivity.
Qed.
Lemma isNumber_itoa : forall i, isNumber (itoa (Z.of_nat i)) = true.
Proof.
  intros i. destruct (itoa_nat i) as (u & -> & R & N). unfold isNumber. rewrite allDigits_uint.
  destruct (String.eqb_spec (DecimalString.NilEmpty.string_of_uint u) ""); [congruence|]. reflexivity.
Qed.
Lemma noSlash_itoa : forall i, noSlash (itoa (Z.of_nat i)).
Proof.
  intros i. destruct (itoa_nat i) as (u & -> & _). generalize (allDigits_uint u). generalize (DecimalString.NilEmpty.string_of_uint u).
  intros s. induction s as [|c r IH]; intros A I; [destruct I|]. cbn [allDigits] in A. apply andb_prop in A. destruct A as [A1 A2].
  destruct I as [E|I]; [subst c; discriminate|]. exact (IH A2 I).
Qed.

Lemma resolves_index : forall n l k i r c xs, Forall wellFormed (l ++ Nth k i :: r) -> existsb isIndex l = false -> addressed n l = Some c ->
  listed c k = Some xs -> Z.of_nat i < 2 ^ 63 ->
  resolveSub (Some n) ("#" ++ pointer (l ++ Nth k i :: r)) =
    if (i <? List.length xs)%nat then Ok (Bad "out of bounds") else Panic "index out of range".
Proof.
  intros n l k i r c xs W NI A X L63. destruct (resolve_root n _ W) as (f & L & ->). apply Forall_app in W. destruct W as [W1 W2].
  inversion W2 as [|? ? W3 W4]; subst.
  destruct (follow_prefix l f n (Nth k i :: r) c W1 NI W2) as (f' & L' & [->|(_ & l1 & k1 & l2 & d & -> & A1 & U)]); auto.
  - left. discriminate.
  - destruct f' as [|f']; [lia|]. cbn [resolveSubF].
    assert (E : body (Nth k i :: r) = k ++ String "/" (itoa (Z.of_nat i) ++ pointer r)) by (cbn [body written]; rewrite append_assoc; reflexivity).
    rewrite E. rewrite refToken_app; [|apply kw_noSlash; cbn in W3 |- *; tauto].
    destruct (String.eqb_spec (itoa (Z.of_nat i) ++ pointer r) "") as [E0|_].
    { exfalso. destruct (itoa_nat i) as (u & EU & _ & N). rewrite EU in E0. destruct (DecimalString.NilEmpty.string_of_uint u); [congruence|discriminate]. }
    assert (S : refSlice (resolveSubF f') (Some xs) (itoa (Z.of_nat i) ++ pointer r) =
                if (i <? List.length xs)%nat then Ok (Bad "out of bounds") else Panic "index out of range").
    { unfold refSlice. rewrite token_then by apply noSlash_itoa. rewrite atoi_itoa by auto.
      destruct (Nat.ltb_spec i (List.length xs)).
      - destruct (Z.ltb_spec (Z.of_nat i) (Z.of_nat (List.length xs))); [reflexivity|lia].
      - destruct (Z.ltb_spec (Z.of_nat i) (Z.of_nat (List.length xs))); [lia|]. destruct (Z.ltb_spec (Z.of_nat i) 0); [lia|]. cbn [orb].
        rewrite Nat2Z.id. destruct (nth_error xs i) eqn:NT; [|reflexivity]. exfalso.
        assert (NN : nth_error xs i <> None) by congruence. apply nth_error_Some in NN. lia. }
    cbn in W3. kw W3; unfold refCase; cbn [String.eqb Ascii.eqb Bool.eqb]; unfold listed in X; cbv beta iota in X.
    + rewrite X. exact S.
    + unfold refItems. destruct (sItems c) as [d|]; [|discriminate]. rewrite token_then by apply noSlash_itoa. cbn [fst].
      rewrite isNumber_itoa, X. exact S.
    + rewrite X. exact S.
    + rewrite X. exact S.
    + rewrite X. exact S.
  - rewrite addressed_app, A1 in A. cbn [addressed down] in A. rewrite unchecked_single in A by auto. discriminate.
Qed.

(* ------------------------------------------------------------------ which pointers are safe *)
Lemma resolves_no_list : forall n l k i r c, Forall wellFormed (l ++ Nth k i :: r) -> existsb isIndex l = false -> addressed n l = Some c ->
  listed c k = None -> (k = "items" -> sItems c <> None) ->
  exists e, resolveSub (Some n) ("#" ++ pointer (l ++ Nth k i :: r)) = Ok (Bad e).
Proof.
  intros n l k i r c W NI A X IT. destruct (resolve_root n _ W) as (f & L & ->). apply Forall_app in W. destruct W as [W1 W2].
  inversion W2 as [|? ? W3 W4]; subst.
  destruct (follow_prefix l f n (Nth k i :: r) c W1 NI W2) as (f' & L' & [->|(_ & l1 & k1 & l2 & d & -> & A1 & U)]); auto.
  - left. discriminate.
  - destruct f' as [|f']; [lia|]. cbn [resolveSubF].
    assert (E : body (Nth k i :: r) = k ++ String "/" (itoa (Z.of_nat i) ++ pointer r)) by (cbn [body written]; rewrite append_assoc; reflexivity).
    rewrite E. rewrite refToken_app; [|apply kw_noSlash; cbn in W3 |- *; tauto].
    destruct (String.eqb_spec (itoa (Z.of_nat i) ++ pointer r) "") as [E0|_].
    { exfalso. destruct (itoa_nat i) as (u & EU & _ & N). rewrite EU in E0. destruct (DecimalString.NilEmpty.string_of_uint u); [congruence|discriminate]. }
    cbn in W3. kw W3; unfold refCase; cbn [String.eqb Ascii.eqb Bool.eqb]; unfold listed in X; cbv beta iota in X.
    + rewrite X. cbn. eauto.
    + unfold refItems. destruct (sItems c) as [d|]; [|exfalso; apply (IT eq_refl eq_refl)]. rewrite token_then by apply noSlash_itoa. cbn [fst].
      rewrite isNumber_itoa, X. cbn. eauto.
    + rewrite X. cbn. eauto.
    + rewrite X. cbn. eauto.
    + rewrite X. cbn. eauto.
  - rewrite addressed_app, A1 in A. cbn [addressed down] in A. rewrite unchecked_single in A by auto. discriminate.
Qed.

Definition free (bad : list string) (p : string) : Prop := forall a k b, In k bad -> p <> a ++ k ++ b.
Lemma refToken_parts : forall p, exists r, p = fst (refToken p) ++ r /\ exists a, r = a ++ snd (refToken p).
Proof.
  induction p as [|c r IH]; [exists ""; split; [reflexivity|exists ""; reflexivity]|]. cbn [refToken].
  destruct (Ascii.eqb_spec c "/") as [->|N]; [exists (String "/" r); split; [reflexivity|exists "/"; reflexivity]|].
  destruct IH as (x & E & a & E2). destruct (refToken r) as [t rest]. cbn [fst snd] in *. exists x. split; [cbn; congruence|exists a; exact E2].
Qed.
Lemma free_rest : forall bad p, free bad p -> free bad (snd (refToken p)).
Proof.
  intros bad p H a k b I E. destruct (refToken_parts p) as (r & E1 & x & E2). apply (H (fst (refToken p) ++ x ++ a) k b I).
  rewrite E1 at 1. rewrite E2, E. rewrite !append_assoc. reflexivity.
Qed.
Lemma free_part : forall bad p k, free bad p -> In k bad -> fst (refToken p) <> k.
Proof.
  intros bad p k H I E. destruct (refToken_parts p) as (r & E1 & _). apply (H "" k r I). rewrite <- E. exact E1.
Qed.
Definition unsafe : list string := ["additionalProperties"; "items"; "additionalItems"; "unevaluatedItems"; "0"; "1"; "2"; "3"; "4"; "5"; "6"; "7"; "8"; "9"].
Lemma digit_unsafe : forall c, isDigit c = true -> In (String c "") unsafe.
Proof. intros [[] [] [] [] [] [] [] []] H; try discriminate H; cbn; tauto. Qed.
Lemma free_atoi : forall t, free unsafe t -> atoi t = None.
Proof.
  intros t H. unfold atoi.
  assert (D : forall d a acc, t = a ++ d -> d <> "" -> digitsVal acc d = None).
  { intros [|c d] a acc E N; [congruence|]. cbn. destruct (isDigit c) eqn:K; [|reflexivity]. exfalso. apply (H a (String c "") d (digit_unsafe c K)). exact E. }
  destruct t as [|c r]; [reflexivity|].
  destruct (Ascii.eqb c "-"); [|destruct (Ascii.eqb c "+")].
  - destruct (String.eqb_spec r ""); [reflexivity|]. rewrite (D r (String c "")) by auto. reflexivity.
  - destruct (String.eqb_spec r ""); [reflexivity|]. rewrite (D r (String c "")) by auto. reflexivity.
  - destruct (String.eqb_spec (String c r) ""); [reflexivity|]. rewrite (D (String c r) "") by auto. reflexivity.
Qed.
Lemma resolve_calm : forall f o p w, free unsafe p -> resolveSubF f o p <> Panic w.
Proof.
  induction f as [|f IH]; intros o p w H; [discriminate|]. cbn [resolveSubF]. destruct o as [n|]; [|discriminate].
  pose proof (free_rest _ _ H) as H2. pose proof (fun k I => free_part _ _ k H I) as HP. destruct (refToken p) as [part rest]. cbn [fst snd] in *.
  destruct (String.eqb_spec rest "") as [|N]; [discriminate|].
  assert (A : forall o, resolveSubF f o rest <> Panic w) by (intros; apply IH; auto).
  assert (B : forall o, resolveSubF f o (snd (refToken rest)) <> Panic w) by (intros; apply IH; apply free_rest; auto).
  assert (C1 : forall l, refProperty (resolveSubF f) l rest <> Panic w).
  { intros [l|]; cbn; [|discriminate]. destruct (refToken rest) as [a b]. cbn [snd] in *. destruct (assoc a l); [apply B|discriminate]. }
  assert (C2 : forall l, refSlice (resolveSubF f) l rest <> Panic w).
  { intros [l|]; cbn; [|discriminate]. destruct (refToken rest) as [a b] eqn:T. replace (atoi a) with (@None Z); [discriminate|]. symmetry. apply free_atoi.
    intros x k y I E. destruct (refToken_parts rest) as (r & E1 & _). rewrite T in E1. cbn [fst] in E1. apply (H2 x k (y ++ r) I).
    rewrite E1, E. rewrite !append_assoc. reflexivity. }
  assert (NB : forall k, In k unsafe -> String.eqb part k = false) by (intros k I; apply String.eqb_neq; auto).
  unfold refCase. rewrite (NB "additionalProperties"), (NB "items"), (NB "additionalItems"), (NB "unevaluatedItems") by (cbn; tauto). repeat (match goal with |- (if ?b then _ else _) <> _ => destruct b end; auto); discriminate.
Qed.
