(* What rewriting the references of a node does to the rest of it: the node is written, read as a generic
   value, written and read again. *)
From Coq Require Import ZArith Reals List String Ascii Bool Lia Psatz.
From Flocq Require Import Core BinarySingleNaN.
From Verif Require Import Base Float64 Json Schema NodeFacts Util Number Gen Codec CodecFacts CodecThm PState PFacts FloatFacts NumberFacts.
Import ListNotations.
Open Scope string_scope.
Open Scope Z_scope.

Inductive Pairs {A B : Type} (R : A -> B -> Prop) : list A -> list B -> Prop :=
| Pairs_nil : Pairs R [] []
| Pairs_cons : forall a b l l', R a b -> Pairs R l l' -> Pairs R (a :: l) (b :: l').
(* one text and the text it becomes; RR relates a reference and the one it becomes *)
Section Similar.
Variable RR : string -> string -> Prop.
Inductive sim : json -> json -> Prop :=
| sim_null : sim JNull JNull
| sim_bool : forall b, sim (JBool b) (JBool b)
| sim_str : forall a, sim (JStr a) (JStr a)
| sim_int : forall z, finite (fofZ z) = true -> sim (JInt z) (encFloat (fofZ z))
| sim_float : forall f, finite f = true -> sim (JFloat f) (encFloat f)
| sim_arr : forall l l', Pairs sim l l' -> sim (JArr l) (JArr l')
| sim_obj : forall m m', Pairs (fun p q => fst p = fst q /\ (sim (snd p) (snd q) \/ (fst p = "$ref" /\ exists a b, snd p = JStr a /\ snd q = JStr b /\ RR a b))) m m' -> sim (JObj m) (JObj m').
Definition simKV (p q : string * json) : Prop :=
  fst p = fst q /\ (sim (snd p) (snd q) \/ (fst p = "$ref" /\ exists a b, snd p = JStr a /\ snd q = JStr b /\ RR a b)).

Lemma dec_sim : forall j g, decAny j = Some g -> sim j (encAny g).
Proof.
  induction j using json_ind'; intros g Hg.
  - injection Hg as <-. constructor.
  - injection Hg as <-. constructor.
  - cbn [decAny] in Hg. destruct (finite (fofZ z)) eqn:F; [|discriminate]. injection Hg as <-. cbn [encAny]. constructor; auto.
  - cbn [decAny] in Hg. destruct (finite f) eqn:F; [|discriminate]. injection Hg as <-. cbn [encAny]. constructor; auto.
  - injection Hg as <-. constructor.
  - cbn [decAny] in Hg.
    match type of Hg with match ?x with _ => _ end = _ => destruct x as [l'|] eqn:G; [|discriminate] end. injection Hg as <-. cbn [encAny]. constructor.
    revert l' G. induction H as [|x l Hx Hl IH]; intros l' G.
    + injection G as <-. constructor.
    + destruct (decAny x) as [a|] eqn:A; [|discriminate].
      match type of G with match ?y with _ => _ end = _ => destruct y as [b|] eqn:B; [|discriminate] end. injection G as <-. cbn [map]. constructor; auto.
  - cbn [decAny] in Hg.
    match type of Hg with match ?x with _ => _ end = _ => destruct x as [l'|] eqn:G; [|discriminate] end. injection Hg as <-. cbn [encAny]. constructor.
    revert l' G. induction H as [|[k x] l Hx Hl IH]; intros l' G.
    + injection G as <-. constructor.
    + destruct (decAny x) as [a|] eqn:A; [|discriminate].
      match type of G with match ?y with _ => _ end = _ => destruct y as [b|] eqn:B; [|discriminate] end. injection G as <-. cbn [map fst snd]. constructor; [split; [reflexivity|left; exact (Hx a A)]|auto].
Qed.
End Similar.

Section Rewriting.
Variable E : penv.
Variable s : pst.
(* the two inner loops of rewriteJson *)
Fixpoint rwElems (xs : list json) : err (list json) :=
  match xs with
  | [] => Good []
  | x :: t =>
      match (match x with JObj _ => rewriteJson E s x | _ => Good x end) with
      | Bad e => Bad e
      | Good x' => match rwElems t with Good t' => Good (x' :: t') | Bad e => Bad e end
      end
  end.
Fixpoint rwMembers (l : list (string * json)) : err (list (string * json)) :=
        match l with
        | [] => Good []
        | (k, v) :: r =>
            if String.eqb k "$ref" then
              match v with
              | JStr str =>
                  match resolveRef E s str with
                  | Bad e => Bad e
                  | Good (d, p) => match rwMembers r with Good r' => Good ((k, JStr (d ++ p)) :: r') | Bad e => Bad e end
                  end
              | _ => Good l
              end
            else
              match v with
              | JObj _ =>
                  match rewriteJson E s v with
                  | Bad e => Bad e
                  | Good v' => match rwMembers r with Good r' => Good ((k, v') :: r') | Bad e => Bad e end
                  end
              | JArr xs =>
                  match rwElems xs with
                  | Bad e => Bad e
                  | Good xs' => match rwMembers r with Good r' => Good ((k, JArr xs') :: r') | Bad e => Bad e end
                  end
              | _ => match rwMembers r with Good r' => Good ((k, v) :: r') | Bad e => Bad e end
              end
        end.
Lemma rewriteJson_obj : forall m, rewriteJson E s (JObj m) = match rwMembers m with Good m' => Good (JObj m') | Bad e => Bad e end.
Proof. reflexivity. Qed.

Definition decList (l : list json) : option (list json) := allSome decAny l.
Definition decKVs (l : list (string * json)) : option (list (string * json)) := allSomeKV decAny l.
Lemma decAny_arr : forall l, decAny (JArr l) = match decList l with Some l' => Some (JArr l') | None => None end.
Proof. reflexivity. Qed.
Lemma decAny_obj : forall l, decAny (JObj l) = match decKVs l with Some l' => Some (JObj l') | None => None end.
Proof. reflexivity. Qed.
(* a reference and the document and path it is resolved to *)
Definition becomes (a b : string) : Prop := exists d p, resolveRef E s a = Good (d, p) /\ b = d ++ p.
Lemma rewrite_sim : forall j g g', decAny j = Some g -> rewriteJson E s g = Good g' -> sim becomes j (encAny g').
Proof.
  assert (Same : forall j g g', decAny j = Some g -> Good g = Good g' -> sim becomes j (encAny g')).
  { intros j g g' Hd Hr. injection Hr as <-. apply dec_sim. auto. }
  intros j0.
  cut (forall g, decAny j0 = Some g ->
        (forall g', rewriteJson E s g = Good g' -> sim becomes j0 (encAny g')) /\
        match g with JArr xs => forall xs', rwElems xs = Good xs' -> sim becomes j0 (encAny (JArr xs')) | _ => True end).
  { intros C g g' Hg. apply (C g Hg). }
  induction j0 using json_ind'; intros g Hg.
  - injection Hg as <-. split; [|exact I]. intros g' Hr. apply (Same JNull JNull); auto.
  - injection Hg as <-. split; [|exact I]. intros g' Hr. apply (Same (JBool b) (JBool b)); auto.
  - assert (K : exists f, g = JFloat f). { cbn [decAny] in Hg. destruct (finite _); [|discriminate]. injection Hg as <-. eauto. }
    destruct K as [f ->]. split; [|exact I]. intros g' Hr. eapply Same; eauto.
  - assert (K : exists f, g = JFloat f). { cbn [decAny] in Hg. destruct (finite _); [|discriminate]. injection Hg as <-. eauto. }
    destruct K as [f' ->]. split; [|exact I]. intros g' Hr. eapply Same; eauto.
  - injection Hg as <-. split; [|exact I]. intros g' Hr. apply (Same (JStr s0) (JStr s0)); auto.
  - pose proof Hg as Hg0. rewrite decAny_arr in Hg. destruct (decList l) as [l'|] eqn:G; [|discriminate]. injection Hg as <-. split.
    + intros g' Hr. eapply Same; eauto.
    + intros xs' Hx. cbn [encAny]. constructor. clear Hg0. revert l' G xs' Hx. unfold decList. induction H as [|x l Hx Hl IH]; intros l' G xs' R.
      * injection G as <-. injection R as <-. constructor.
      * rewrite allSome_cons in G. destruct (decAny x) as [a|] eqn:A; [|discriminate]. destruct (allSome decAny l) as [b|] eqn:B; [|discriminate]. injection G as <-.
        cbn [rwElems] in R.
        assert (R1 : exists a' t', match a with JObj _ => rewriteJson E s a | _ => Good a end = Good a' /\ rwElems b = Good t' /\ xs' = a' :: t').
        { destruct (match a with JObj _ => rewriteJson E s a | _ => Good a end) as [a'|e]; [|discriminate R]. destruct (rwElems b) as [t'|e]; [|discriminate R].
          injection R as <-. eauto. }
        destruct R1 as (a' & t' & R1 & R2 & ->). cbn [map]. constructor; [|apply (IH b eq_refl t' R2)].
        destruct a; try (apply (Same x _ a' A R1)). exact (proj1 (Hx _ eq_refl) a' R1).
  - pose proof Hg as Hg0. rewrite decAny_obj in Hg. destruct (decKVs m) as [l'|] eqn:G; [|discriminate]. injection Hg as <-. split; [|exact I].
    intros g' Hr. rewrite rewriteJson_obj in Hr. destruct (rwMembers l') as [m'|e] eqn:R; [|discriminate]. injection Hr as <-. cbn [encAny]. constructor. clear Hg0.
    revert l' G m' R. unfold decKVs. induction H as [|[k x] l Hx Hl IH]; intros l' G m' R.
    + injection G as <-. injection R as <-. constructor.
    + cbn [snd] in Hx. rewrite allSomeKV_cons in G. destruct (decAny x) as [a|] eqn:A; [|discriminate]. destruct (allSomeKV decAny l) as [b|] eqn:B; [|discriminate].
      injection G as <-. cbn [rwMembers] in R.
      assert (Rest : forall a', sim becomes x (encAny a') -> match rwMembers b with Good r' => Good ((k, a') :: r') | Bad e => Bad e end = Good m' ->
                Pairs (simKV becomes) ((k, x) :: l) (map (fun kv => (fst kv, encAny (snd kv))) m')).
      { intros a' S1 R'. destruct (rwMembers b) as [r'|e] eqn:Rb; [|discriminate R']. injection R' as <-. cbn [map fst snd]. constructor; [split; auto|].
        exact (IH b eq_refl r' Rb). }
      pose proof (dec_sim becomes x a A) as Sx.
      destruct (String.eqb k "$ref") eqn:Ek.
      * apply String.eqb_eq in Ek. subst k.
        assert (Stop : Good (("$ref", a) :: b) = Good m' -> Pairs (simKV becomes) (("$ref", x) :: l) (map (fun kv => (fst kv, encAny (snd kv))) m')).
        { intros R'. injection R' as <-. cbn [map fst snd]. constructor; [split; auto|].
          clear -B Hl. revert b B. induction Hl as [|[k y] l Hy Hl IHl]; intros b B.
          - injection B as <-. constructor.
          - rewrite allSomeKV_cons in B. destruct (decAny y) as [c|] eqn:C; [|discriminate]. destruct (allSomeKV decAny l) as [d|] eqn:D; [|discriminate].
            injection B as <-. cbn [map fst snd]. constructor; [|apply IHl; auto]. split; auto. left. apply dec_sim; auto. }
        destruct a; try exact (Stop R).
        destruct (resolveRef E s s0) as [[d p]|e] eqn:Rr; [|discriminate R]. destruct (rwMembers b) as [r'|e] eqn:Rb; [|discriminate R].
        injection R as <-. cbn [map fst snd encAny]. constructor; [|exact (IH b eq_refl r' Rb)].
        split; auto. right. split; auto. exists s0, (d ++ p).
        split; [|split; [reflexivity|exists d, p; auto]]. destruct x; cbn [decAny] in A; try discriminate A; try (destruct (finite _); discriminate A); try (injection A as ->; auto).
        -- match type of A with match ?y with _ => _ end = _ => destruct y; discriminate A end.
        -- match type of A with match ?y with _ => _ end = _ => destruct y; discriminate A end.
      * destruct a; try exact (Rest _ Sx R).
        -- destruct (rwElems l0) as [xs'|e] eqn:Re; [|discriminate R]. refine (Rest (JArr xs') _ R). exact (proj2 (Hx _ eq_refl) xs' Re).
        -- destruct (rewriteJson E s (JObj m)) as [v'|e] eqn:Re; [|discriminate R]. refine (Rest v' _ R). exact (proj1 (Hx _ eq_refl) v' Re).
Qed.
End Rewriting.

(* ------------------------------------------------------------------ the node read back *)
Section ReadBack.
Variable RR : string -> string -> Prop.
Notation sim := (sim RR).
Notation simKV := (simKV RR).
Lemma sim_assoc : forall k m m', Pairs simKV m m' ->
  match assoc k m, assoc k m' with
  | Some v, Some v' => sim v v' \/ (k = "$ref" /\ exists a b, v = JStr a /\ v' = JStr b /\ RR a b)
  | None, None => True
  | _, _ => False
  end.
Proof.
  intros k m m' H. induction H as [|[k1 v1] [k2 v2] l l' [H1 H2] Hl IH]; cbn [assoc]; auto. cbn [fst snd] in H1, H2. subst k2.
  destruct (String.eqb k k1) eqn:Ek; auto. apply String.eqb_eq in Ek. subst k1. destruct H2 as [H2|[H2 H3]]; auto.
Qed.
Lemma pairs_In : forall A B (R : A -> B -> Prop) l l', Pairs R l l' -> forall b, In b l' -> exists a, In a l /\ R a b.
Proof. intros A B R l l' H. induction H as [|a b l l' Hab Hl IH]; intros c Hc; [destruct Hc|]. destruct Hc as [<-|Hc]; [exists a; split; [left|]; auto|]. destruct (IH c Hc) as (x & Hx & Hr). exists x. split; [right|]; auto. Qed.

(* [n'] is what the text of [n] reads back as, after rewriting *)
Definition image (n n' : schemaNode) : Prop := exists j, sim (encodeNode n) j /\ decodeNode j = Some n'.
Definition images (l l' : list schemaNode) : Prop := forall c', In c' l' -> c' = emptyNode \/ exists c, In c l /\ image c c'.
Lemma images_nil : forall l, images l [].
Proof. intros l c []. Qed.

Lemma encodeNode_obj : forall n, exists m, encodeNode n = JObj m.
Proof. intros n. rewrite encodeNode_eq. eauto. Qed.

Section Reading.
Variables n n' : schemaNode.
Variable m' : list (string * json).
Hypothesis Hp : Pairs simKV (members (tbl n)) m'.
Hypothesis Hd : assemble (decMembers m') = Some n'.

(* the member of n' under k comes from the member of n under k *)
Lemma field_sim : forall k x, assoc k (decMembers m') = Some x -> k <> "$ref" ->
  exists v v', assoc k (tbl n) = Some (Some v) /\ sim v v' /\ x = decField decodeNode k v'.
Proof.
  intros k x H Hk. apply decMembers_field in H. destruct H as (v' & Hv & ->).
  pose proof (sim_assoc k _ _ Hp) as S. rewrite Hv, assoc_members in S by apply tbl_keys.
  destruct (assoc k (tbl n)) as [[v|]|]; try contradiction. destruct S as [S|[S _]]; [|congruence]. eauto.
Qed.
Lemma map_images : forall k o o', kindOf k = KMap -> k <> "$ref" -> assoc k (tbl n) = Some (omap (encKV encodeNode) o) ->
  fMap (decMembers m') k = Some o' -> images (omaps o) (omaps o').
Proof.
  intros k o o' K Hk Ht H. unfold fMap in H. destruct (assoc k (decMembers m')) as [x|] eqn:A; [|injection H as <-; apply images_nil].
  destruct (field_sim k x A Hk) as (v & v' & E1 & S & ->). rewrite Ht in E1. injection E1 as E1.
  destruct o as [l|]; [|discriminate E1]. cbn [omap] in E1. injection E1 as <-. unfold decField in H. rewrite K in H.
  inversion S as [| | | | | |m1 m2 P E1 E2]; subst. destruct (allSomeKV decodeNode m2) as [l'|] eqn:D; [|discriminate H]. injection H as <-. cbn [omaps].
  intros c' Hc. right. clear -P D Hc.
  revert l l' P D Hc. induction m2 as [|[k2 v2] m2 IH]; intros l l' P D Hc.
  - injection D as <-. destruct Hc.
  - rewrite allSomeKV_cons in D. destruct (decodeNode v2) as [c2|] eqn:D2; [|discriminate]. destruct (allSomeKV decodeNode m2) as [l2|] eqn:D3; [|discriminate].
    injection D as <-. destruct l as [|[k1 c1] l]; [inversion P|]. cbn [map] in P. inversion P as [|a b x y [P1 P2] P3]; subst. cbn [fst snd] in P1, P2.
    destruct Hc as [<-|Hc].
    + exists c1. split; [left; auto|]. destruct P2 as [P2|[_ (a & b & P2 & _)]]; [exists v2; auto|]. destruct (encodeNode_obj c1) as [mm Em]. congruence.
    + destruct (IH l l2 P3 eq_refl Hc) as (c & Hin & I). exists c. split; [right; auto|auto].
Qed.
Lemma all_images : forall l l' ns', Pairs sim (map encodeNode l) l' -> allSome decodeNode l' = Some ns' -> forall c', In c' ns' -> exists c, In c l /\ image c c'.
Proof.
  clear. induction l as [|c l IH]; intros l' ns' P D c' Hc; cbn [map] in P; inversion P as [|a b x y P1 P2]; subst.
  - injection D as <-. destruct Hc.
  - rewrite allSome_cons in D. destruct (decodeNode b) as [c2|] eqn:D2; [|discriminate]. destruct (allSome decodeNode y) as [l2|] eqn:D3; [|discriminate].
    injection D as <-. destruct Hc as [<-|Hc]; [exists c; split; [left; auto|]; exists b; auto|].
    destruct (IH _ _ P2 D3 c' Hc) as (d & Hin & I). exists d. split; [right; auto|auto].
Qed.
Lemma list_images : forall k o o', kindOf k = KList -> k <> "$ref" -> assoc k (tbl n) = Some (omap (encList encodeNode) o) ->
  fList (decMembers m') k = Some o' -> images (olist o) (olist o').
Proof.
  intros k o o' K Hk Ht H. unfold fList in H. destruct (assoc k (decMembers m')) as [x|] eqn:A; [|injection H as <-; apply images_nil].
  destruct (field_sim k x A Hk) as (v & v' & E1 & S & ->). rewrite Ht in E1. injection E1 as E1.
  destruct o as [l|]; [|discriminate E1]. cbn [omap] in E1. injection E1 as <-. unfold decField in H. rewrite K in H.
  inversion S as [| | | | |l1 l2 P E1 E2|]; subst. destruct (allSome decodeNode l2) as [l'|] eqn:D; [|discriminate H]. injection H as <-. cbn [olist].
  intros c' Hc. right. eapply all_images; eauto.
Qed.
Lemma node_sim_obj : forall c v', sim (encodeNode c) v' -> exists m2, v' = JObj m2.
Proof. intros c v' S. destruct (encodeNode_obj c) as [mm Em]. rewrite Em in S. inversion S. eauto. Qed.
Lemma node_images : forall k o o', kindOf k = KNode -> k <> "$ref" -> assoc k (tbl n) = Some (omap encodeNode o) ->
  fNode (decMembers m') k = Some o' -> images (onode o) (onode o').
Proof.
  intros k o o' K Hk Ht H. unfold fNode in H. destruct (assoc k (decMembers m')) as [x|] eqn:A; [|injection H as <-; apply images_nil].
  destruct (field_sim k x A Hk) as (v & v' & E1 & S & ->). rewrite Ht in E1. injection E1 as E1.
  destruct o as [c|]; [|discriminate E1]. cbn [omap] in E1. injection E1 as <-. unfold decField in H. rewrite K in H.
  destruct (node_sim_obj c v' S) as [m2 ->]. destruct (decodeNode (JObj m2)) as [c2|] eqn:D; [|discriminate H]. injection H as <-.
  intros c' [<-|[]]. right. exists c. split; [left; auto|]. exists (JObj m2). auto.
Qed.
Lemma nof_images : forall k o o', kindOf k = KNof -> k <> "$ref" -> assoc k (tbl n) = Some (omap (encNof encodeNode) o) ->
  fNof (decMembers m') k = Some o' -> images (nofs o) (nofs o').
Proof.
  intros k o o' K Hk Ht H. unfold fNof in H. destruct (assoc k (decMembers m')) as [x|] eqn:A; [|injection H as <-; apply images_nil].
  destruct (field_sim k x A Hk) as (v & v' & E1 & S & ->). rewrite Ht in E1. injection E1 as E1.
  destruct o as [[c b]|]; [|discriminate E1]. cbn [omap] in E1. injection E1 as <-. unfold decField in H. rewrite K in H.
  unfold encNof in S. cbn [nofFalse nofSchema] in S. destruct b.
  - inversion S; subst. injection H as <-. intros c' [].
  - destruct c as [c|].
    + destruct (node_sim_obj c v' S) as [m2 ->]. destruct (decodeNode (JObj m2)) as [c2|] eqn:D; [|discriminate H]. injection H as <-.
      intros c' [<-|[]]. right. exists c. split; [left; auto|]. exists (JObj m2). auto.
    + inversion S; subst. injection H as <-. intros c' [].
Qed.
Lemma items_images : forall k o o', kindOf k = KItems -> k <> "$ref" -> assoc k (tbl n) = Some (omap (encItems encodeNode) o) ->
  fItems (decMembers m') k = Some o' -> images (itemss o) (itemss o').
Proof.
  intros k o o' K Hk Ht H. unfold fItems in H. destruct (assoc k (decMembers m')) as [x|] eqn:A; [|injection H as <-; apply images_nil].
  destruct (field_sim k x A Hk) as (v & v' & E1 & S & ->). rewrite Ht in E1. injection E1 as E1.
  destruct o as [[c l b]|]; [|discriminate E1]. cbn [omap] in E1. injection E1 as <-. unfold decField in H. rewrite K in H.
  unfold encItems in S. cbn [itDisallow itNode itNodes] in S. destruct b.
  - inversion S; subst. injection H as <-. intros c' [].
  - destruct c as [c|].
    + destruct (node_sim_obj c v' S) as [m2 ->]. destruct (decodeNode (JObj m2)) as [c2|] eqn:D; [|discriminate H]. injection H as <-.
      intros c' [<-|[]]. right. exists c. split; [left; auto|]. exists (JObj m2). auto.
    + destruct l as [l|].
      * inversion S as [| | | | |l1 l2 P E1 E2|]; subst. destruct (allSome decodeNode l2) as [l'|] eqn:D; [|discriminate H]. injection H as <-.
        intros c' Hc. cbn [itemss itNode itNodes onode olist app] in Hc. destruct Hc as [<-|Hc]; [left; auto|]. right.
        destruct (all_images _ _ _ P D c' Hc) as (d & Hin & I). exists d. split; auto.
      * inversion S; subst. injection H as <-. intros c' [].
Qed.
Lemma int_images : forall k o o', kindOf k = KRaw -> k <> "$ref" -> assoc k (tbl n) = Some (omap JInt o) ->
  fRaw decInt (decMembers m') k = Some o' -> forall z', o' = Some z' -> exists z, o = Some z /\ finite (fofZ z) = true /\ z' = Btrunc (fofZ z).
Proof.
  intros k o o' K Hk Ht H z' ->. apply fRaw_inv with (a := z') in H; auto. destruct H as (j & A & D).
  destruct (field_sim k _ A Hk) as (v & v' & E1 & S & X). rewrite Ht in E1. injection E1 as E1. destruct o as [z|]; [|discriminate E1].
  injection E1 as <-. exists z. inversion S as [| | |z0 F E1 E2| | |]; subst. split; auto. split; auto.
  unfold decField in X. rewrite K in X. assert (j = encFloat (fofZ z)) as ->.
  { destruct (encFloat (fofZ z)) eqn:EE; try discriminate X; injection X as ->; auto. }
  unfold encFloat in D. destruct (wholeSmall (fofZ z)); [|discriminate D]. unfold decInt in D. destruct (_ && _); [|discriminate D]. injection D as <-. auto.
Qed.
Lemma float_images : forall k o o', kindOf k = KRaw -> k <> "$ref" -> assoc k (tbl n) = Some (omap encFloat o) ->
  fRaw decFloat (decMembers m') k = Some o' -> forall f', o' = Some f' -> exists f, o = Some f /\ (finite f = true -> f' = f).
Proof.
  intros k o o' K Hk Ht H f' ->. apply fRaw_inv with (a := f') in H; auto. destruct H as (j & A & D).
  destruct (field_sim k _ A Hk) as (v & v' & E1 & S & X). rewrite Ht in E1. injection E1 as E1. destruct o as [f|]; [|discriminate E1].
  injection E1 as <-. exists f. split; auto. intros Ff.
  assert (v' = encFloat f) as ->.
  { unfold encFloat in S at 1. destruct (wholeSmall f) eqn:W.
    - inversion S as [| | |z0 F E1 E2| | |]; subst. destruct (whole_value f W) as [-> _]. auto.
    - inversion S; subst. auto. }
  unfold decField in X. rewrite K in X. assert (j = encFloat f) as ->.
  { destruct (encFloat f) eqn:EE; try discriminate X; injection X as ->; auto. }
  rewrite decFloat_enc in D by auto. injection D as <-. auto.
Qed.
Lemma type_images : forall o', assoc "type" (tbl n) = Some (omap encType (sType n)) -> fRaw decType (decMembers m') "type" = Some o' ->
  (forall t, sType n = Some t -> mtMultiple t <> Some []) -> forall t, o' = Some t -> mtMultiple t <> Some [].
Proof.
  intros o' Ht H HT t ->. apply fRaw_inv with (a := t) in H; auto. destruct H as (j & A & D).
  destruct (field_sim "type" _ A ltac:(discriminate)) as (v & v' & E1 & S & X). rewrite Ht in E1. injection E1 as E1.
  destruct (sType n) as [[si mu]|]; [|discriminate E1]. injection E1 as <-. unfold encType in S. cbn [mtSingle mtMultiple] in S.
  change (decField decodeNode "type" v') with (match v' with JNull => VNull | _ => VRaw v' end) in X.
  destruct (negb _).
  - inversion S; subst. injection X as ->. injection D as <-. discriminate.
  - destruct mu as [[|x r]|]; try (inversion S; subst; discriminate X).
    cbn [map] in S. inversion S as [| | | | |l1 l2 P E1 E2|]; subst. inversion P as [|a b y y' P1 P2]; subst. injection X as ->.
    cbn [decType] in D. rewrite allSome_cons in D. destruct (decStrElem b); [|discriminate D]. destruct (allSome decStrElem y'); [|discriminate D].
    injection D as <-. discriminate.
Qed.
End Reading.

Definition fieldImages (n n' : schemaNode) : Prop :=
  images (omaps (sProperties n)) (omaps (sProperties n')) /\ images (nofs (sAdditionalProperties n)) (nofs (sAdditionalProperties n')) /\
  images (omaps (sPatternProperties n)) (omaps (sPatternProperties n')) /\ images (itemss (sItems n)) (itemss (sItems n')) /\
  images (onode (sContains n)) (onode (sContains n')) /\ images (olist (sPrefixItems n)) (olist (sPrefixItems n')) /\
  images (nofs (sAdditionalItems n)) (nofs (sAdditionalItems n')) /\ images (nofs (sUnevaluatedItems n)) (nofs (sUnevaluatedItems n')) /\
  images (onode (sNot n)) (onode (sNot n')) /\ images (olist (sAllOf n)) (olist (sAllOf n')) /\ images (olist (sAnyOf n)) (olist (sAnyOf n')) /\
  images (olist (sOneOf n)) (olist (sOneOf n')) /\ images (omaps (sDefs n)) (omaps (sDefs n')) /\ images (omaps (sDefinitions n)) (omaps (sDefinitions n')) /\
  images (onode (sIf n)) (onode (sIf n')) /\ images (onode (sThen n)) (onode (sThen n')) /\ images (onode (sElse n)) (onode (sElse n')) /\
  images (map snd (sDependentSchemas n)) (map snd (sDependentSchemas n')) /\ sMergedIf n' = [] /\ sMergedNot n' = [].
Definition intImage (o o' : option Z) : Prop := forall z', o' = Some z' -> exists z, o = Some z /\ finite (fofZ z) = true /\ z' = Btrunc (fofZ z).
Definition floatImage (o o' : option f64) : Prop := forall f', o' = Some f' -> exists f, o = Some f /\ (finite f = true -> f' = f).
Definition leafImages (n n' : schemaNode) : Prop :=
  ((forall t, sType n = Some t -> mtMultiple t <> Some []) -> forall t, sType n' = Some t -> mtMultiple t <> Some []) /\
  intImage (sMinItems n) (sMinItems n') /\ intImage (sMaxItems n) (sMaxItems n') /\ intImage (sMinContains n) (sMinContains n') /\
  intImage (sMaxContains n) (sMaxContains n') /\ intImage (sMinProperties n) (sMinProperties n') /\ intImage (sMaxProperties n) (sMaxProperties n') /\
  floatImage (sMinimum n) (sMinimum n') /\ floatImage (sMaximum n) (sMaximum n') /\ floatImage (sExclusiveMinimum n) (sExclusiveMinimum n') /\
  floatImage (sExclusiveMaximum n) (sExclusiveMaximum n') /\ floatImage (sMultipleOf n) (sMultipleOf n').

Lemma image_fields : forall n n', image n n' -> fieldImages n n' /\ leafImages n n'.
Proof.
  intros n n' (j & S & D). rewrite encodeNode_eq in S. inversion S as [| | | | | |m1 m' P E1 E2]; subst. rewrite decodeNode_obj in D.
  pose proof D as D0. fold (simKV) in P.
  apply assemble_inv in D as (E0 & E1 & E2 & E3 & E4 & E5 & E6 & E7 & E8 & E9 & E10 & E11 & E12 & E13 & E14 & E15 & E16 & E17 & E18 & E19 & E20 & E21 & E22 & E23 & E24 & E25 & E26 & E27 & E28 & E29 & E30 & E31 & E32 & E33 & E34 & E35 & E36 & E37 & E38 & E39 & E40 & E41 & E42 & E43 & E44).
  assert (Dep : images (map snd (sDependentSchemas n)) (map snd (sDependentSchemas n'))).
  { destruct (fMap (decMembers m') "dependentSchemas") as [o'|] eqn:F; [|discriminate E41].
    assert (X : images (omaps (match sDependentSchemas n with [] => None | l => Some l end)) (omaps o')).
    { apply (map_images n m' P "dependentSchemas"); auto; [discriminate|]. destruct (sDependentSchemas n) eqn:Es; unfold tbl; cbn; rewrite Es; reflexivity. }
    destruct o' as [l'|]; cbn [orNil] in E41; injection E41 as <-; [|apply images_nil].
    destruct (sDependentSchemas n); [|exact X]. intros c' Hc. destruct (X c' Hc) as [->|(c & [] & _)]. auto. }
  split.
  - unfold fieldImages.
    repeat match goal with
    | |- _ /\ _ => split
    | |- images (omaps _) _ => eapply (map_images n m' P); [| | |eassumption]; [reflexivity|discriminate|reflexivity]
    | |- images (nofs _) _ => eapply (nof_images n m' P); [| | |eassumption]; [reflexivity|discriminate|reflexivity]
    | |- images (olist _) _ => eapply (list_images n m' P); [| | |eassumption]; [reflexivity|discriminate|reflexivity]
    | |- images (onode _) _ => eapply (node_images n m' P); [| | |eassumption]; [reflexivity|discriminate|reflexivity]
    | |- images (itemss _) _ => eapply (items_images n m' P); [| | |eassumption]; [reflexivity|discriminate|reflexivity]
    end; auto.
  - unfold leafImages.
    split; [apply (type_images n m' P (sType n')); [reflexivity|exact E0]|].
    repeat match goal with
    | |- _ /\ _ => split
    | |- intImage _ _ => unfold intImage; eapply (int_images n m' P); [| | |eassumption]; [reflexivity|discriminate|reflexivity]
    | |- floatImage _ _ => unfold floatImage; eapply (float_images n m' P); [| | |eassumption]; [reflexivity|discriminate|reflexivity]
    end.
Qed.

Theorem within_image : forall n' m', within n' m' -> forall n, image n n' -> m' = emptyNode \/ exists m, within n m /\ image m m'.
Proof.
  induction 1 as [n'|n' c' m' Hc Hw IH]; intros n I.
  - right. exists n. split; [apply within_refl|auto].
  - assert (X : c' = emptyNode \/ exists c, In c (subnodes n) /\ image c c').
    { destruct (image_fields n n' I) as [F _]. unfold fieldImages in F.
      destruct F as (F1&F2&F3&F4&F5&F6&F7&F8&F9&F10&F11&F12&F13&F14&F15&F16&F17&F18&F19&F20).
      unfold subnodes in Hc. rewrite F19, F20 in Hc. unfold subnodes.
      repeat (apply in_app_or in Hc; destruct Hc as [Hc|Hc];
        [match goal with F : images _ ?l |- _ => match type of Hc with In _ l => destruct (F _ Hc) as [->|(c & Hin & Ic)]; [left; reflexivity|right; exists c; split; [rewrite !in_app_iff; tauto|exact Ic]] end end|]).
      destruct Hc. }
    destruct X as [->|(c & Hin & Ic)].
    + left. inversion Hw as [|? d ? Hd]; subst; auto. destruct Hd.
    + destruct (IH c Ic) as [->|(m & Hm & Im)]; [left; auto|]. right. exists m. split; auto. eapply within_step; eauto.
Qed.
(* the reference of the node read back, and uniqueItems *)
Lemma image_ref : forall n n', image n n' -> (forall b, sRef n' = Some b -> exists a, sRef n = Some a /\ (a = b \/ RR a b)) /\ (sUniqueItems n = None -> sUniqueItems n' = None).
Proof.
  intros n n' (j & S & D). rewrite encodeNode_eq in S. inversion S as [| | | | | |m1 m' P E1 E2]; subst. rewrite decodeNode_obj in D.
  fold (simKV) in P. apply assemble_inv in D as (_&_&_&_&_&_&_&_&_&_&_&_&_&_&_&_&_&_&_&_&_&_&_&_&_&_&U&_&_&_&_&_&_&R&_). split.
  - intros b Hb. apply fRaw_inv with (a := b) in R; [|exact Hb]. destruct R as (j & A & Dj). apply decMembers_field in A. destruct A as (v' & Hv & X).
    pose proof (sim_assoc "$ref" (members (tbl n)) m' P) as C. rewrite Hv, assoc_members in C by apply tbl_keys.
    change (assoc "$ref" (tbl n)) with (Some (omap JStr (sRef n))) in C. destruct (sRef n) as [a|]; cbn [omap] in C; [|contradiction].
    exists a. split; [reflexivity|].
    assert (V : exists c, v' = JStr c /\ (a = c \/ RR a c)).
    { destruct C as [C|[_ (x & y & Ex & Ey & Hr)]]; [inversion C; subst; eauto|]. injection Ex as <-. exists y. auto. }
    destruct V as (c & -> & V). change (VRaw j = VRaw (JStr c)) in X. injection X as ->. injection Dj as ->. exact V.
  - intros Hn. destruct (sUniqueItems n') as [b|] eqn:B; [|reflexivity]. exfalso. apply fRaw_inv with (a := b) in U; [|reflexivity]. destruct U as (j & A & _).
    apply decMembers_field in A. destruct A as (v' & Hv & _).
    pose proof (sim_assoc "uniqueItems" (members (tbl n)) m' P) as C. rewrite Hv, assoc_members in C by apply tbl_keys.
    change (assoc "uniqueItems" (tbl n)) with (Some (omap JBool (sUniqueItems n))) in C. rewrite Hn in C. exact C.
Qed.
End ReadBack.
Theorem rewrite_image : forall E s n n', rewriteNode E s n = Good n' -> image (becomes E s) n n'.
Proof.
  intros E s n n' H. unfold rewriteNode in H. destruct (decAny (encodeNode n)) as [g|] eqn:D; [|discriminate H].
  destruct (rewriteJson E s g) as [j|e] eqn:R; [|discriminate H]. destruct (decodeNode (encAny j)) as [x|] eqn:Dn; [|discriminate H]. injection H as <-.
  exists (encAny j). split; auto. eapply rewrite_sim; eauto.
Qed.
