(* Decoding a schema text (Codec.v) gives exactly the node the text says (SpecText.v). *)
From Coq Require Import ZArith List String Bool Lia.
From Flocq Require Import Core BinarySingleNaN.
From Verif Require Import Base Float64 Json Schema Util Codec CodecFacts CodecThm SpecText.
Import ListNotations.
Open Scope string_scope.
Open Scope Z_scope.

Lemma all_F2 : forall A B (f : A -> option B) (R : A -> B -> Prop) vs l, (forall v a, In v vs -> (f v = Some a <-> R v a)) ->
  (allSome f vs = Some l <-> Forall2 R vs l).
Proof.
  intros A B f R. induction vs as [|v vs IH]; intros l H.
  - split; [intros X; injection X as <-; constructor|intros X; inversion X; reflexivity].
  - rewrite allSome_cons. split.
    + destruct (f v) as [a|] eqn:E; [|discriminate]. destruct (allSome f vs) as [r|] eqn:E2; [|discriminate]. intros X. injection X as <-.
      constructor; [apply H; [left; reflexivity|exact E]|]. apply IH; [|reflexivity]. intros; apply H; right; assumption.
    + intros X. inversion X as [|? a ? r X1 X2]; subst. apply H in X1; [|left; reflexivity]. rewrite X1.
      apply IH in X2; [|intros; apply H; right; assumption]. rewrite X2. reflexivity.
Qed.
Lemma allKV_F2 : forall A B (f : A -> option B) (R : A -> B -> Prop) vs l, (forall v a, In v (map snd vs) -> (f v = Some a <-> R v a)) ->
  (allSomeKV f vs = Some l <-> Forall2 (fun p q => fst p = fst q /\ R (snd p) (snd q)) vs l).
Proof.
  intros A B f R. induction vs as [|[k v] vs IH]; intros l H.
  - split; [intros X; injection X as <-; constructor|intros X; inversion X; reflexivity].
  - rewrite allSomeKV_cons. cbn [map snd] in H. split.
    + destruct (f v) as [a|] eqn:E; [|discriminate]. destruct (allSomeKV f vs) as [r|] eqn:E2; [|discriminate]. intros X. injection X as <-.
      constructor; [split; [reflexivity|apply H; [left; reflexivity|exact E]]|]. apply IH; [|reflexivity]. intros; apply H; right; assumption.
    + intros X. inversion X as [|? [k' a] ? r X1 X2]; subst. cbn [fst snd] in X1. destruct X1 as [<- X1]. apply H in X1; [|left; reflexivity]. rewrite X1.
      apply IH in X2; [|intros; apply H; right; assumption]. rewrite X2. reflexivity.
Qed.

(* ------------------------------------------------------------------ leaves *)
Lemma whole_ok : forall v z, decInt v = Some z <-> wholeText v z.
Proof.
  intros v z. unfold wholeText. destruct v as [|b|y|f|s|l|m]; cbn [decInt]; try (split; [discriminate|intros [X _]; discriminate X]).
  destruct (Z.leb_spec (- 2 ^ 63) y), (Z.ltb_spec y (2 ^ 63)); cbn [andb]; (split; [intros X|intros [X Y]; injection X as ->]); try discriminate X; try reflexivity; try lia.
  injection X as <-. split; [reflexivity|lia].
Qed.
Lemma number_ok : forall v f, decFloat v = Some f <-> numberText v f.
Proof.
  intros v f. unfold numberText. destruct v as [|b|y|g|s|l|m]; cbn [decFloat]; rewrite ?finite_is_finite.
  1,2,5,6,7: (split; [discriminate|intros [_ [(z & X & _)|X]]; discriminate X]).
  - split.
    + destruct (is_finite (fofZ y)) eqn:E; [|discriminate]. intros X. assert (Y : fofZ y = f) by congruence. split; [rewrite <- Y; exact E|]. left. exists y. split; [reflexivity|symmetry; exact Y].
    + intros [F [(z & X & Y)|X]]; [|discriminate X]. assert (Z0 : y = z) by congruence. subst z. rewrite Y in F. rewrite F. rewrite Y. reflexivity.
  - split.
    + destruct (is_finite g) eqn:E; [|discriminate]. intros X. assert (Y : g = f) by congruence. split; [rewrite <- Y; exact E|]. right. rewrite Y. reflexivity.
    + intros [F [(z & X & Y)|X]]; [discriminate X|]. assert (Y : g = f) by congruence. rewrite <- Y in F. rewrite F. rewrite Y. reflexivity.
Qed.
Lemma string_ok : forall v s, decStr v = Some s <-> stringText v s.
Proof. intros v s. unfold stringText. destruct v; cbn; split; intros X; try discriminate X; try (injection X as ->; reflexivity); congruence. Qed.
Lemma bool_ok : forall v b, decBool v = Some b <-> boolText v b.
Proof. intros v b. unfold boolText. destruct v; cbn; split; intros X; try discriminate X; congruence. Qed.
Lemma name_ok : forall v s, decStrElem v = Some s <-> nameText v s.
Proof.
  intros v s. unfold nameText. destruct v; cbn; split; intros X; try discriminate X; try (destruct X as [X|[X Y]]; try discriminate X; congruence).
  - right. split; congruence.
  - left. congruence.
Qed.
Lemma names_ok : forall v l, decStrs v = Some l <-> listText nameText v l.
Proof.
  intros v l. unfold listText. destruct v as [|b|y|g|s|vs|m]; cbn [decStrs]; try (split; [discriminate|intros (x & X & _); discriminate X]).
  rewrite (all_F2 _ _ decStrElem nameText vs l) by (intros; apply name_ok). split; [eauto|]. intros (x & X & Y). injection X as <-. exact Y.
Qed.
Lemma type_ok : forall v t, decType v = Some t <-> typeText v t.
Proof.
  intros v t. unfold typeText. destruct v as [|b|y|g|s|vs|m]; cbn [decType].
  1,2,3,4,7: (split; [discriminate|intros [(s & X & _)|(l & (vs & X & _) & _)]; discriminate X]).
  - split; [intros X; injection X as <-; left; eauto|]. intros [(u & X & ->)|(l & (vs & X & _) & _)]; [|discriminate X]. congruence.
  - pose proof (all_F2 _ _ decStrElem nameText vs) as K. split.
    + destruct (allSome decStrElem vs) as [l|] eqn:E; [|discriminate]. intros X. injection X as <-. right. exists l. split; [|reflexivity]. exists vs. split; [reflexivity|].
      apply K; [intros; apply name_ok|reflexivity].
    + intros [(u & X & _)|(l & (ws & X & Y) & ->)]; [discriminate X|]. injection X as <-. apply K in Y; [|intros; apply name_ok]. rewrite Y. reflexivity.
Qed.
Lemma decAny_arr' : forall l, decAny (JArr l) = match allSome decAny l with Some l' => Some (JArr l') | None => None end.
Proof. reflexivity. Qed.
Lemma decAny_obj' : forall l, decAny (JObj l) = match allSomeKV decAny l with Some l' => Some (JObj l') | None => None end.
Proof. reflexivity. Qed.
Lemma value_ok : forall v x, decAny v = Some x <-> valueText v x.
Proof.
  induction v as [|b|z|f|s|l IH|m IH] using json_ind'; intros x.
  - cbn. split; [intros X; injection X as <-; constructor|]. intros X. inversion X as [| | |v f N| |]; subst; [reflexivity|]. destruct N as [_ [(z & N & _)|N]]; discriminate N.
  - cbn. split; [intros X; injection X as <-; constructor|]. intros X. inversion X as [| | |v f N| |]; subst; [reflexivity|]. destruct N as [_ [(z & N & _)|N]]; discriminate N.
  - change (decAny (JInt z)) with (if finite (fofZ z) then Some (JFloat (fofZ z)) else None). pose proof (number_ok (JInt z)) as K. cbn [decFloat] in K. split.
    + destruct (finite (fofZ z)); [|discriminate]. intros X. assert (Y : x = JFloat (fofZ z)) by congruence. rewrite Y. apply vtNumber. apply K. reflexivity.
    + intros X. inversion X as [| | |v f N| |]; subst. apply K in N. destruct (finite (fofZ z)); [|discriminate N]. congruence.
  - change (decAny (JFloat f)) with (if finite f then Some (JFloat f) else None). pose proof (number_ok (JFloat f)) as K. cbn [decFloat] in K. split.
    + destruct (finite f); [|discriminate]. intros X. assert (Y : x = JFloat f) by congruence. rewrite Y. apply vtNumber. apply K. reflexivity.
    + intros X. inversion X as [| | |v g N| |]; subst. apply K in N. destruct (finite f); [|discriminate N]. congruence.
  - cbn. split; [intros X; injection X as <-; constructor|]. intros X. inversion X as [| | |v f N| |]; subst; [reflexivity|]. destruct N as [_ [(z & N & _)|N]]; discriminate N.
  - rewrite decAny_arr'. rewrite Forall_forall in IH. pose proof (fun l' => all_F2 _ _ decAny valueText l l' (fun v a I => IH v I a)) as K. split.
    + destruct (allSome decAny l) as [l'|]; [|discriminate]. intros X. injection X as <-. constructor. apply K. reflexivity.
    + intros X. inversion X as [| | |v f N|? l' N|]; subst; [destruct N as [_ [(z & N & _)|N]]; discriminate N|]. apply K in N. rewrite N. reflexivity.
  - rewrite decAny_obj'. rewrite Forall_forall in IH.
    assert (IH' : forall v a, In v (map snd m) -> (decAny v = Some a <-> valueText v a)).
    { intros v a I. apply in_map_iff in I. destruct I as (p & <- & I). apply IH. exact I. }
    pose proof (fun m' => allKV_F2 _ _ decAny valueText m m' IH') as K. split.
    + destruct (allSomeKV decAny m) as [m'|]; [|discriminate]. intros X. injection X as <-. constructor. apply K. reflexivity.
    + intros X. inversion X as [| | |v f N| |? m' N]; subst; [destruct N as [_ [(z & N & _)|N]]; discriminate N|]. apply K in N. rewrite N. reflexivity.
Qed.
Lemma values_ok : forall v l, decAnys v = Some l <-> listText valueText v l.
Proof.
  intros v l. unfold listText. destruct v as [|b|y|g|s|vs|m]; cbn [decAnys]; try (split; [discriminate|intros (x & X & _); discriminate X]).
  rewrite (all_F2 _ _ decAny valueText vs l) by (intros; apply value_ok). split; [eauto|]. intros (x & X & Y). injection X as <-. exact Y.
Qed.
Lemma dependent_ok : forall v l, decStrsMap v = Some l <-> mapText (fun v l => v = JNull /\ l = [] \/ listText nameText v l) v l.
Proof.
  intros v l. unfold mapText. destruct v as [|b|y|g|s|vs|m]; cbn [decStrsMap]; try (split; [discriminate|intros (x & X & _); discriminate X]).
  rewrite (allKV_F2 _ _ decStrsElem (fun v l => v = JNull /\ l = [] \/ listText nameText v l) m l).
  - split; [eauto|]. intros (x & X & Y). injection X as <-. exact Y.
  - intros v a _. rewrite <- names_ok. destruct v; cbn; split; intros X; auto; try discriminate X; try (destruct X as [[X _]|X]; [discriminate X|exact X]).
    + left. split; [reflexivity|congruence].
    + destruct X as [[_ ->]|X]; [reflexivity|discriminate X].
Qed.

(* ------------------------------------------------------------------ members *)
Lemma raw_field : forall A (dec : json -> option A) R m k o, kindOf k = KRaw -> (forall v a, dec v = Some a <-> R v a) ->
  (fRaw dec (decMembers m) k = Some o <-> optional R (assoc k m) o).
Proof.
  intros A dec R m k o K D. unfold fRaw. rewrite assoc_decMembers. destruct (assoc k m) as [v|].
  - unfold decField. rewrite K. destruct v as [|b|y|g|s|vs|w].
    1: { split; [intros X; injection X as <-; constructor|intros X; inversion X; subst; [reflexivity|congruence]]. }
    all: (split; [match goal with |- match ?x with _ => _ end = _ -> _ => destruct x as [a|] eqn:E; [|discriminate]; intros X; injection X as <-; constructor; [discriminate|apply D; exact E] end
                 |intros X; inversion X as [| |? a N Y]; subst; apply D in Y; rewrite Y; reflexivity]).
  - split; [intros X; injection X as <-; constructor|intros X; inversion X; reflexivity].
Qed.
Lemma const_field : forall m o, fConst (decMembers m) "const" = Some o <-> constText (assoc "const" m) o.
Proof.
  intros m o. unfold fConst. rewrite assoc_decMembers. destruct (assoc "const" m) as [v|].
  - unfold decField. change (kindOf "const") with KRaw. cbv iota. destruct v as [|b|y|g|s|vs|w].
    1: { split; [intros X; injection X as <-; constructor; constructor|intros X; inversion X as [|? x Y]; subst; apply value_ok in Y; exact (f_equal Some Y)]. }
    all: (split; [match goal with |- match decAny ?v with _ => _ end = _ -> _ => destruct (decAny v) as [a|] eqn:E; [|discriminate]; intros X; assert (Y : Some a = o) by congruence; rewrite <- Y; constructor; apply value_ok; exact E end
                 |intros X; inversion X as [|? x Y]; subst; apply value_ok in Y; rewrite Y; reflexivity]).
  - split; [intros X; injection X as <-; constructor|intros X; inversion X; reflexivity].
Qed.
Lemma orNil_ok : forall A (f : option (option (list A))) (Q : option (list A) -> Prop) l, (forall o, f = Some o <-> Q o) ->
  (orNil f = Some l <-> exists o, Q o /\ l = match o with Some l => l | None => [] end).
Proof.
  intros A f Q l H. split.
  - intros X. destruct f as [[r|]|]; cbn in X; [| |discriminate X]; injection X as <-; [exists (Some r)|exists None]; (split; [apply H; reflexivity|reflexivity]).
  - intros (o & X & ->). apply H in X. rewrite X. destruct o; reflexivity.
Qed.

Section Members.
Variable m : list (string * json).
Definition faithful (v : json) : Prop := forall n, decodeNode v = Some n <-> reads v n.
Definition below (v : json) : Prop := faithful v /\ match v with JArr l => Forall faithful l | JObj w => Forall (fun kv => faithful (snd kv)) w | _ => True end.
Hypothesis all : forall k v, assoc k m = Some v -> below v.

Lemma arr_below : forall l, below (JArr l) -> forall v a, In v l -> (decodeNode v = Some a <-> reads v a).
Proof. intros l [_ B] v a I. rewrite Forall_forall in B. apply B. exact I. Qed.
Lemma obj_below : forall w, below (JObj w) -> forall v a, In v (map snd w) -> (decodeNode v = Some a <-> reads v a).
Proof. intros w [_ B] v a I. rewrite Forall_forall in B. apply in_map_iff in I. destruct I as (p & <- & I). apply (B p I). Qed.

Lemma node_field : forall k o, kindOf k = KNode -> (fNode (decMembers m) k = Some o <-> optional reads (assoc k m) o).
Proof.
  intros k o K. unfold fNode. rewrite assoc_decMembers. destruct (assoc k m) as [v|] eqn:A.
  - destruct (all k v A) as [F _]. unfold decField. rewrite K. destruct v as [|b|y|g|s|vs|w].
    1: { split; [intros X; injection X as <-; constructor|intros X; inversion X; subst; [reflexivity|congruence]]. }
    all: (split; [match goal with |- match (match decodeNode ?v with _ => _ end) with _ => _ end = _ -> _ => destruct (decodeNode v) as [a|] eqn:E; [|discriminate]; intros X; injection X as <-; constructor; [discriminate|apply F; exact E] end
                 |intros X; inversion X as [| |? a N Y]; subst; apply F in Y; rewrite Y; reflexivity]).
  - split; [intros X; injection X as <-; constructor|intros X; inversion X; reflexivity].
Qed.
Lemma list_field : forall k o, kindOf k = KList ->
  (fList (decMembers m) k = Some o <-> optional (fun v l => exists vs, v = JArr vs /\ Forall2 reads vs l) (assoc k m) o).
Proof.
  intros k o K. unfold fList. rewrite assoc_decMembers. destruct (assoc k m) as [v|] eqn:A.
  - pose proof (all k v A) as B. unfold decField. rewrite K. destruct v as [|b|y|g|s|vs|w].
    1: { split; [intros X; injection X as <-; constructor|intros X; inversion X; subst; [reflexivity|congruence]]. }
    1,2,3,4,6: (split; [discriminate|intros X; inversion X as [| |? a N (ws & Y & _)]; discriminate Y]).
    pose proof (fun l => all_F2 _ _ decodeNode reads vs l (arr_below vs B)) as Q. split.
    + destruct (allSome decodeNode vs) as [l|] eqn:E; [|discriminate]. intros X. injection X as <-. constructor; [discriminate|]. exists vs. split; [reflexivity|]. apply Q. reflexivity.
    + intros X. inversion X as [| |? a N (ws & Y & Z)]; subst. injection Y as <-. apply Q in Z. rewrite Z. reflexivity.
  - split; [intros X; injection X as <-; constructor|intros X; inversion X; reflexivity].
Qed.
Lemma map_field : forall k o, kindOf k = KMap ->
  (fMap (decMembers m) k = Some o <-> optional (fun v l => exists vs, v = JObj vs /\ Forall2 (fun p q => fst p = fst q /\ reads (snd p) (snd q)) vs l) (assoc k m) o).
Proof.
  intros k o K. unfold fMap. rewrite assoc_decMembers. destruct (assoc k m) as [v|] eqn:A.
  - pose proof (all k v A) as B. unfold decField. rewrite K. destruct v as [|b|y|g|s|vs|w].
    1: { split; [intros X; injection X as <-; constructor|intros X; inversion X; subst; [reflexivity|congruence]]. }
    1,2,3,4,5: (split; [discriminate|intros X; inversion X as [| |? a N (ws & Y & _)]; discriminate Y]).
    pose proof (fun l => allKV_F2 _ _ decodeNode reads w l (obj_below w B)) as Q. split.
    + destruct (allSomeKV decodeNode w) as [l|] eqn:E; [|discriminate]. intros X. injection X as <-. constructor; [discriminate|]. exists w. split; [reflexivity|]. apply Q. reflexivity.
    + intros X. inversion X as [| |? a N (ws & Y & Z)]; subst. injection Y as <-. apply Q in Z. rewrite Z. reflexivity.
  - split; [intros X; injection X as <-; constructor|intros X; inversion X; reflexivity].
Qed.
Lemma items_field : forall o, fItems (decMembers m) "items" = Some o <-> optional (itemsText reads) (assoc "items" m) o.
Proof.
  intros o. unfold fItems. rewrite assoc_decMembers. destruct (assoc "items" m) as [v|] eqn:A.
  - pose proof (all _ v A) as B. unfold decField. change (kindOf "items") with KItems. cbv iota. destruct v as [|b|y|g|s|vs|w].
    + split; [intros X; injection X as <-; constructor|intros X; inversion X; subst; [reflexivity|congruence]].
    + destruct b; (split; [intros X; try discriminate X|intros X; inversion X as [| |? a N Y]; inversion Y; reflexivity]).
      injection X as <-. constructor; [discriminate|]. constructor.
    + split; [discriminate|intros X; inversion X as [| |? a N Y]; inversion Y].
    + split; [discriminate|intros X; inversion X as [| |? a N Y]; inversion Y].
    + split; [discriminate|intros X; inversion X as [| |? a N Y]; inversion Y].
    + pose proof (fun l => all_F2 _ _ decodeNode reads vs l (arr_below vs B)) as Q. split.
      * destruct (allSome decodeNode vs) as [l|] eqn:E; [|discriminate]. intros X. injection X as <-. constructor; [discriminate|]. constructor. apply Q. reflexivity.
      * intros X. inversion X as [| |? a N Y]; subst. inversion Y as [| |? l' Z]; subst. apply Q in Z. rewrite Z. reflexivity.
    + destruct B as [F _]. split.
      * destruct (decodeNode (JObj w)) as [c|] eqn:E; [|discriminate]. intros X. injection X as <-. constructor; [discriminate|]. constructor. apply F. exact E.
      * intros X. inversion X as [| |? a N Y]; subst. inversion Y as [|? c Z|]; subst. apply F in Z. rewrite Z. reflexivity.
  - split; [intros X; injection X as <-; constructor|intros X; inversion X; reflexivity].
Qed.
Lemma rest_field : forall k o, kindOf k = KNof -> (fNof (decMembers m) k = Some o <-> optional (restText reads) (assoc k m) o).
Proof.
  intros k o K. unfold fNof. rewrite assoc_decMembers. destruct (assoc k m) as [v|] eqn:A.
  - pose proof (all _ v A) as B. unfold decField. rewrite K. destruct v as [|b|y|g|s|vs|w].
    + split; [intros X; injection X as <-; constructor|intros X; inversion X; subst; [reflexivity|congruence]].
    + split; [|intros X; inversion X as [| |? a N Y]; inversion Y; subst; destruct b; reflexivity].
      intros X. destruct b; injection X as <-; (constructor; [discriminate|]); [exact (rtBool _ true)|exact (rtBool _ false)].
    + split; [discriminate|intros X; inversion X as [| |? a N Y]; inversion Y].
    + split; [discriminate|intros X; inversion X as [| |? a N Y]; inversion Y].
    + split; [discriminate|intros X; inversion X as [| |? a N Y]; inversion Y].
    + split; [discriminate|intros X; inversion X as [| |? a N Y]; inversion Y].
    + destruct B as [F _]. split.
      * destruct (decodeNode (JObj w)) as [c|] eqn:E; [|discriminate]. intros X. injection X as <-. constructor; [discriminate|]. constructor. apply F. exact E.
      * intros X. inversion X as [| |? a N Y]; subst. inversion Y as [|? c Z]; subst. apply F in Z. rewrite Z. reflexivity.
  - split; [intros X; injection X as <-; constructor|intros X; inversion X; reflexivity].
Qed.
End Members.

Lemma assemble_back : forall fs n,
  (fRaw decType fs "type" = Some (sType n) /\
  fRaw decInt fs "length" = Some (sLength n) /\
  fMap fs "properties" = Some (sProperties n) /\
  fNof fs "additionalProperties" = Some (sAdditionalProperties n) /\
  fMap fs "patternProperties" = Some (sPatternProperties n) /\
  fRaw decInt fs "minProperties" = Some (sMinProperties n) /\
  fRaw decInt fs "maxProperties" = Some (sMaxProperties n) /\
  fRaw decStrs fs "required" = Some (sRequired n) /\
  fRaw decStr fs "pattern" = Some (sPattern n) /\
  fRaw decStr fs "format" = Some (sFormat n) /\
  fRaw decInt fs "minLength" = Some (sMinLength n) /\
  fRaw decInt fs "maxLength" = Some (sMaxLength n) /\
  fRaw decFloat fs "minimum" = Some (sMinimum n) /\
  fRaw decFloat fs "maximum" = Some (sMaximum n) /\
  fRaw decFloat fs "exclusiveMinimum" = Some (sExclusiveMinimum n) /\
  fRaw decFloat fs "exclusiveMaximum" = Some (sExclusiveMaximum n) /\
  fRaw decFloat fs "multipleOf" = Some (sMultipleOf n) /\
  fItems fs "items" = Some (sItems n) /\
  fRaw decInt fs "minItems" = Some (sMinItems n) /\
  fRaw decInt fs "maxItems" = Some (sMaxItems n) /\
  fNode fs "contains" = Some (sContains n) /\
  fRaw decInt fs "minContains" = Some (sMinContains n) /\
  fRaw decInt fs "maxContains" = Some (sMaxContains n) /\
  fList fs "prefixItems" = Some (sPrefixItems n) /\
  fNof fs "additionalItems" = Some (sAdditionalItems n) /\
  fNof fs "unevaluatedItems" = Some (sUnevaluatedItems n) /\
  fRaw decBool fs "uniqueItems" = Some (sUniqueItems n) /\
  fRaw decAnys fs "enum" = Some (sEnum n) /\
  fConst fs "const" = Some (sConst n) /\
  fNode fs "not" = Some (sNot n) /\
  fList fs "allOf" = Some (sAllOf n) /\
  fList fs "anyOf" = Some (sAnyOf n) /\
  fList fs "oneOf" = Some (sOneOf n) /\
  fRaw decStr fs "$ref" = Some (sRef n) /\
  fRaw decStr fs "$id" = Some (sId n) /\
  fMap fs "$defs" = Some (sDefs n) /\
  fMap fs "definitions" = Some (sDefinitions n) /\
  fNode fs "if" = Some (sIf n) /\
  fNode fs "then" = Some (sThen n) /\
  fNode fs "else" = Some (sElse n) /\
  orNil (fRaw decStrsMap fs "dependentRequired") = Some (sDependentRequired n) /\
  orNil (fMap fs "dependentSchemas") = Some (sDependentSchemas n) /\
  sMergedIf n = [] /\
  sMergedNot n = [] /\
  sConstraints n = None) -> assemble fs = Some n.
Proof.
  intros fs n H. repeat match type of H with _ /\ _ => let H1 := fresh "F" in destruct H as [H1 H] end.
  unfold assemble.
  repeat match goal with F : ?x = Some _ |- match ?x with _ => _ end = _ => rewrite F; clear F end.
  repeat match goal with F : _ = _ |- _ => revert F end. clear. destruct n. cbn. intros -> -> ->. reflexivity.
Qed.

Ltac each I tac := cbn in I; repeat (destruct I as [I|I]; [injection I as <- <-; tac|]); destruct I.
Lemma object_faithful : forall m, (forall k v, assoc k m = Some v -> below v) -> faithful (JObj m).
Proof.
  intros m A n. rewrite decodeNode_obj. split.
  - intros H. apply assemble_inv in H.
    destruct H as (H0 & H1 & H2 & H3 & H4 & H5 & H6 & H7 & H8 & H9 & H10 & H11 & H12 & H13 & H14 & H15 & H16 & H17 & H18 & H19 & H20 & H21 & H22 & H23 & H24 & H25 & H26 & H27 & H28 & H29 & H30 & H31 & H32 & H33 & H34 & H35 & H36 & H37 & H38 & H39 & H40 & H41 & H42 & H43 & H44).
    constructor.
    + intros k get I. each I ltac:(refine (proj1 (raw_field _ decInt wholeText m _ _ _ whole_ok) _); [reflexivity|assumption]).
    + intros k get I. each I ltac:(refine (proj1 (raw_field _ decFloat numberText m _ _ _ number_ok) _); [reflexivity|assumption]).
    + intros k get I. each I ltac:(refine (proj1 (raw_field _ decStr stringText m _ _ _ string_ok) _); [reflexivity|assumption]).
    + refine (proj1 (raw_field _ decType typeText m _ _ _ type_ok) _); [reflexivity|assumption].
    + refine (proj1 (raw_field _ decStrs (listText nameText) m _ _ _ names_ok) _); [reflexivity|assumption].
    + refine (proj1 (raw_field _ decBool boolText m _ _ _ bool_ok) _); [reflexivity|assumption].
    + refine (proj1 (raw_field _ decAnys (listText valueText) m _ _ _ values_ok) _); [reflexivity|assumption].
    + apply const_field. assumption.
    + apply (proj1 (orNil_ok _ _ _ _ (fun o => raw_field _ decStrsMap _ m "dependentRequired" o eq_refl dependent_ok))). assumption.
    + intros k get I. each I ltac:(refine (proj1 (node_field m A _ _ _) _); [reflexivity|assumption]).
    + intros k get I. each I ltac:(refine (proj1 (list_field m A _ _ _) _); [reflexivity|assumption]).
    + intros k get I. each I ltac:(refine (proj1 (map_field m A _ _ _) _); [reflexivity|assumption]).
    + apply (proj1 (orNil_ok _ _ _ _ (fun o => map_field m A "dependentSchemas" o eq_refl))). assumption.
    + apply (items_field m A). assumption.
    + intros k get I. each I ltac:(refine (proj1 (rest_field m A _ _ _) _); [reflexivity|assumption]).
    + assumption.
    + assumption.
    + assumption.
  - intros H. inversion H as [|m' n' W1 W2 W3 W4 W5 W6 W7 W8 W9 W10 W11 W12 W13 W14 W15 W16 W17 W18]; subst m' n'. clear H. apply assemble_back.
    assert (V1 : forall k get, In (k, get) wholes -> fRaw decInt (decMembers m) k = Some (get n)) by (intros k get I; refine (proj2 (raw_field _ decInt wholeText m k (get n) _ whole_ok) (W1 k get I)); each I reflexivity).
    assert (V2 : forall k get, In (k, get) numbers -> fRaw decFloat (decMembers m) k = Some (get n)) by (intros k get I; refine (proj2 (raw_field _ decFloat numberText m k (get n) _ number_ok) (W2 k get I)); each I reflexivity).
    assert (V3 : forall k get, In (k, get) strings -> fRaw decStr (decMembers m) k = Some (get n)) by (intros k get I; refine (proj2 (raw_field _ decStr stringText m k (get n) _ string_ok) (W3 k get I)); each I reflexivity).
    apply (proj2 (raw_field _ decType typeText m "type" _ eq_refl type_ok)) in W4.
    apply (proj2 (raw_field _ decStrs (listText nameText) m "required" _ eq_refl names_ok)) in W5.
    apply (proj2 (raw_field _ decBool boolText m "uniqueItems" _ eq_refl bool_ok)) in W6.
    apply (proj2 (raw_field _ decAnys (listText valueText) m "enum" _ eq_refl values_ok)) in W7.
    apply const_field in W8.
    apply (proj2 (orNil_ok _ _ _ _ (fun o => raw_field _ decStrsMap _ m "dependentRequired" o eq_refl dependent_ok))) in W9.
    assert (V10 : forall k get, In (k, get) schemas -> fNode (decMembers m) k = Some (get n)) by (intros k get I; refine (proj2 (node_field m A k (get n) _) (W10 k get I)); each I reflexivity).
    assert (V11 : forall k get, In (k, get) schemaLists -> fList (decMembers m) k = Some (get n)) by (intros k get I; refine (proj2 (list_field m A k (get n) _) (W11 k get I)); each I reflexivity).
    assert (V12 : forall k get, In (k, get) schemaMaps -> fMap (decMembers m) k = Some (get n)) by (intros k get I; refine (proj2 (map_field m A k (get n) _) (W12 k get I)); each I reflexivity).
    apply (proj2 (orNil_ok _ _ _ _ (fun o => map_field m A "dependentSchemas" o eq_refl))) in W13.
    apply (items_field m A) in W14.
    assert (V15 : forall k get, In (k, get) rests -> fNof (decMembers m) k = Some (get n)) by (intros k get I; refine (proj2 (rest_field m A k (get n) _) (W15 k get I)); each I reflexivity).
    repeat match goal with |- _ /\ _ => split end;
      first [assumption | apply V1 | apply V2 | apply V3 | apply V10 | apply V11 | apply V12 | apply V15]; cbn; tauto.
Qed.

Theorem decode_reads : forall j n, decodeNode j = Some n <-> reads j n.
Proof.
  assert (B : forall j, below j).
  { induction j as [|b|z|f|s|l IH|m IH] using json_ind'.
    1: { split; [|exact Logic.I]. intros n. cbn [decodeNode]. split; [intros X; injection X as <-; constructor|intros X; inversion X; reflexivity]. }
    1,2,3,4: (split; [|exact Logic.I]; intros n; split; [discriminate|intros X; inversion X]).
    - split; [intros n; split; [discriminate|intros X; inversion X]|]. eapply Forall_impl; [|exact IH]. intros v [F _]. exact F.
    - split.
      + apply object_faithful. intros k v A. rewrite Forall_forall in IH. clear - A IH. induction m as [|[x y] m IHm]; [discriminate A|]. cbn [assoc] in A.
        destruct (String.eqb k x); [injection A as <-; exact (IH (x, y) (or_introl eq_refl))|]. apply IHm; [|exact A]. intros p I. apply IH. right. exact I.
      + eapply Forall_impl; [|exact IH]. intros v [F _]. exact F. }
  intros j. exact (proj1 (B j)).
Qed.
