(* The shape of generated values: what arrays, objects, strings, choices and constrained values are
   made of, and where each part came from. *)
From Coq Require Import ZArith List String Bool Lia.
From Flocq Require Import Core BinarySingleNaN.
From Verif Require Import Base Float64 Json Schema Util Rand Options Number NumberFacts Gen GenFacts GenInv.
Import ListNotations.
Open Scope string_scope.
Open Scope Z_scope.

(* every primitive step and every combination of steps moves forward *)
Definition fwd {A} (m : M A) : Prop := forall s v s', m s = Ok (v, s') -> after s s'.

Lemma fwd_of_inv : forall A (m : M A), (forall s0, inv True True (after s0) m) -> fwd m.
Proof. unfold fwd; intros. specialize (H s s (after_refl s)). rewrite H0 in H. exact H. Qed.

Lemma Forall2_impl : forall A B (P Q : A -> B -> Prop) l1 l2, (forall a b, P a b -> Q a b) ->
  Forall2 P l1 l2 -> Forall2 Q l1 l2.
Proof. intros A B P Q l1 l2 H F. induction F; constructor; auto. Qed.
Lemma Forall2_len : forall A B (P : A -> B -> Prop) l1 l2, Forall2 P l1 l2 -> List.length l1 = List.length l2.
Proof. intros A B P l1 l2 F. induction F; simpl; auto. Qed.
Lemma firstn_In : forall A n (l : list A) x, In x (firstn n l) -> In x l.
Proof. intros. rewrite <- (firstn_skipn n l). apply in_or_app; auto. Qed.

Section Values.
Variable E : env.
Variable G : gen -> M json.
Hypothesis HG : forall g, fwd (G g).

Lemma invG : forall g s0, inv True True (after s0) (G g).
Proof.
  intros g s0 s Hs. destruct (G g s) as [[v s']| |] eqn:R; auto.
  eapply after_trans; [exact Hs|]. eapply HG; eauto.
Qed.

(* v was generated by g between the states s0 and s1 *)
Definition prod (g : gen) (v : json) (s0 s1 : gst) : Prop :=
  exists s s', G g s = Ok (v, s') /\ after s0 s /\ after s' s1.

Lemma prod_widen : forall g v a b a' b', prod g v a b -> after a' a -> after b b' -> prod g v a' b'.
Proof.
  unfold prod; intros g v a b a' b' (s & s' & H1 & H2 & H3) H4 H5. exists s, s'. repeat split; auto;
  eapply after_trans; eauto.
Qed.

Lemma prod_here : forall g v s s', G g s = Ok (v, s') -> prod g v s s'.
Proof. intros. exists s, s'. repeat split; auto; try apply after_refl. Qed.

Ltac fw := apply fwd_of_inv; intros.

Lemma fwd_genAll : forall gs, fwd (genAll G gs).
Proof. intros; fw. apply inv_genAll; auto using stable_after, invG. Qed.
Lemma fwd_genItem : forall u g d, fwd (genItem E G u g d).
Proof. intros; fw. apply inv_genItem; auto using stable_after, invG. Qed.
Lemma fwd_containsLoop : forall n i k u g d, fwd (containsLoop E G n i k u g d).
Proof. intros; fw. apply inv_containsLoop; auto using stable_after, invG. Qed.
Lemma fwd_itemsLoop : forall n i k mn u g d, fwd (itemsLoop E G n i k mn u g d).
Proof. intros; fw. apply inv_itemsLoop; auto using stable_after, invG. Qed.
Lemma fwd_drawInt : forall a b, fwd (drawInt E a b).
Proof. intros; fw. apply inv_drawInt; auto using stable_after. Qed.
Lemma fwd_minimize : fwd (minimize E).
Proof. fw. apply inv_minimize; auto using stable_after. Qed.
Lemma fwd_cutoff : fwd (cutoff E).
Proof. fw. apply inv_cutoff; auto using stable_after. Qed.
Lemma fwd_budget : forall b, fwd (budget E b).
Proof. intros; fw. apply inv_budget; auto using stable_after. Qed.
Lemma fwd_tick : fwd tick.
Proof. fw. apply inv_tick; auto using stable_after. Qed.
Lemma fwd_draw : fwd (draw E).
Proof. fw. apply inv_draw; auto using stable_after. Qed.
Lemma fwd_globDraw : fwd (globDraw E).
Proof. fw. apply inv_globDraw; auto using stable_after. Qed.
Lemma fwd_draws : forall n, fwd (draws E n).
Proof. intros; fw. apply inv_draws; auto using stable_after. Qed.
Lemma fwd_genKey : forall pre p k, fwd (genKey E G pre p k).
Proof. intros; fw. apply inv_genKey; auto using stable_after, invG. Qed.
Lemma fwd_genKeys : forall pre p ks m, fwd (genKeys E G pre p ks m).
Proof. intros; fw. apply inv_genKeys; auto using stable_after, invG. Qed.
Lemma fwd_genPattern : forall pp, fwd (genPattern E G pp).
Proof. intros; fw. apply inv_genPattern; auto using stable_after, invG. split; auto. Qed.
Lemma fwd_patternLoop : forall n pp m, fwd (patternLoop E G n pp m).
Proof. intros; fw. apply inv_patternLoop; auto using stable_after, invG. split; auto. Qed.
Lemma fwd_additionalLoop : forall n i g m, fwd (additionalLoop G n i g m).
Proof. intros; fw. apply inv_additionalLoop; auto using stable_after, invG. Qed.
Lemma fwd_fallbackLoop : forall n i mn m, fwd (fallbackLoop E G n i mn m).
Proof. intros; fw. apply inv_fallbackLoop; auto using stable_after, invG. Qed.
Lemma fwd_fillerLoop : forall n i g m, fwd (fillerLoop G n i g m).
Proof. intros; fw. apply inv_fillerLoop; auto using stable_after, invG. Qed.
Lemma fwd_fillMinimum : forall mn a m, fwd (fillMinimum G mn a m).
Proof. intros; fw. apply inv_fillMinimum; auto using stable_after, invG. Qed.
Lemma fwd_stringChoiceMultiple : forall l n, fwd (stringChoiceMultiple E l n).
Proof. intros; fw. apply inv_stringChoiceMultiple; auto using stable_after. Qed.

Lemma after_In : forall s s' e, after s s' -> In e (gLog s) -> In e (gLog s').
Proof. intros s s' e (_ & _ & _ & l & ->) H. apply in_or_app; auto. Qed.

Lemma emitted_emit : forall e s, emitted e s (mkG (gPos s) (gGlob s) (gCx s) (gStack s) (e :: gLog s)).
Proof. intros. exists [e]. simpl. auto. Qed.
Lemma emitted_cut : forall e s c, emitted e s (mkG (gPos s) (gGlob s) c (gStack s) (e :: gLog s)).
Proof. intros. exists [e]. simpl. auto. Qed.

(* ------------------------------------------------------------------ the common head *)
(* a guarded generator either gave up (and said so) or ran its body *)
Lemma guarded_ok : forall m s v s', guarded E m s = Ok (v, s') ->
  (v = JNull /\ emitted EvCutoff s s' /\ shouldCutoff (eOpts E) (gCx s + 1) = true) \/
  (exists s1, after s s1 /\ m s1 = Ok (v, s') /\ shouldCutoff (eOpts E) (gCx s + 1) = false /\ gStack s1 = gStack s /\
     gCx s1 = gCx s + 1).
Proof.
  intros m s v s' H. unfold guarded in H. stepM H. pose proof (fwd_tick _ _ _ H0) as A.
  unfold tick in H0. injection H0 as <- <-.
  stepM H. unfold cutoff, bindM, getCx, ret in H0. injection H0 as <- <-. cbn [gCx] in H.
  destruct (shouldCutoff (eOpts E) (gCx s + 1)) eqn:C.
  - left. stepM H. unfold emit in H0. injection H0 as <- <-. apply ret_ok in H. destruct H as [-> ->]. split; auto. split; auto. apply emitted_cut.
  - right. eexists; split; [exact A|]. auto.
Qed.

(* ------------------------------------------------------------------ strings *)
Lemma fillString_ok : forall n mn acc s v s', fillString E n mn acc s = Ok (v, s') ->
  mn <= Z.of_nat (String.length v) /\ exists r, v = (acc ++ r)%string.
Proof.
  induction n; intros mn acc s v s' H; simpl in H; [discriminate|].
  destruct (Z.ltb_spec (Z.of_nat (String.length acc)) mn).
  - stepM H. apply IHn in H. destruct H as (H & r & ->). split; auto.
    exists (eSentence E a ++ r)%string. now rewrite append_assoc.
  - apply ret_ok in H. destruct H as [-> _]. split; auto. exists "". now rewrite append_nil_r.
Qed.

Lemma substring_length : forall n s, (n <= String.length s)%nat -> String.length (substring 0 n s) = n.
Proof. induction n; destruct s; simpl; intros; auto; try lia. rewrite IHn; auto; lia. Qed.

Theorem genString_ok : forall mn mx s v s', 0 <= mn -> 0 <= mx -> (mx = 0 \/ mn <= mx) ->
  genString E "" "" mn mx s = Ok (v, s') ->
  exists str, v = JStr str /\ mn <= Z.of_nat (String.length str) /\
              (mx <> 0 -> Z.of_nat (String.length str) <= mx).
Proof.
  intros mn mx s v s' H1 H2 H3 H. unfold genString in H. cbn [String.eqb negb] in H.
  stepM H. stepM H. stepM H. apply ret_ok in H. destruct H as [-> _].
  match goal with F : fillString _ _ _ _ _ = _ |- _ => apply fillString_ok in F; destruct F as [L _] end.
  eexists; split; [reflexivity|].
  destruct (Z.eqb_spec mx 0); simpl.
  - split; auto. congruence.
  - destruct (Z.ltb_spec mx (Z.of_nat (String.length a1))).
    + rewrite substring_length by lia. lia.
    + split; auto.
Qed.

(* ------------------------------------------------------------------ arrays *)
Lemma genAll_ok : forall gs s vs s', genAll G gs s = Ok (vs, s') ->
  Forall2 (fun g v => prod g v s s') gs vs.
Proof.
  induction gs; intros s vs s' H; simpl in H.
  - apply ret_ok in H. destruct H as [-> ->]. constructor.
  - stepM H. stepM H. apply ret_ok in H. destruct H as [-> ->].
    pose proof (HG _ _ _ _ H0) as A. pose proof (fwd_genAll _ _ _ _ H1) as A'.
    constructor.
    + eapply prod_widen; [apply prod_here; eauto | apply after_refl | auto].
    + apply IHgs in H1. eapply Forall2_impl; [|exact H1]. intros x y P. eapply prod_widen; [exact P|auto|apply after_refl].
Qed.

(* an element written by the uniqueness loop: generated by g and different from what was there, or
   the warning, which is logged *)
Definition itemOrWarning (g : gen) (v : json) (s0 s1 : gst) : Prop :=
  prod g v s0 s1 \/ (v = JStr (uniqueWarning E) /\ emitted EvUniqueFail s0 s1).

Lemma uniqueTry_ok : forall n g seen s v ok s', uniqueTry E G n g seen s = Ok ((v, ok), s') ->
  (ok = true /\ prod g v s s' /\ existsb (same_text (marshal v)) seen = false) \/
  (ok = false /\ v = JStr (uniqueWarning E) /\ emitted EvUniqueFail s s').
Proof.
  induction n; intros g seen s v ok s' H; simpl in H.
  - stepM H. unfold emit in H0. injection H0 as <- <-. apply ret_ok in H. destruct H as [H ->].
    injection H as -> ->. right. auto using emitted_emit.
  - stepM H. destruct (existsb (same_text (marshal a)) seen) eqn:X.
    + apply IHn in H. pose proof (HG _ _ _ _ H0). destruct H as [(-> & H & H2)|(-> & -> & H)];
        [left|right; split; auto; split; auto; eapply emitted_widen; eauto; apply after_refl].
      split; auto. split; auto. eapply prod_widen; eauto. apply after_refl.
    + apply ret_ok in H. destruct H as [H ->]. injection H as -> ->. left. split; auto. split; auto.
      apply prod_here; auto.
Qed.

Lemma genItem_ok : forall u g data s v ok s', genItem E G u g data s = Ok ((v, ok), s') ->
  (ok = true /\ prod g v s s' /\ (u = true -> existsb (same_text (marshal v)) (map marshal data) = false)) \/
  (u = true /\ ok = false /\ v = JStr (uniqueWarning E) /\ emitted EvUniqueFail s s').
Proof.
  intros u g data s v ok s' H. unfold genItem in H. destruct u.
  - apply uniqueTry_ok in H. destruct H as [(H1 & H2 & H3)|H]; [left|right]; auto.
  - stepM H. apply ret_ok in H. destruct H as [H ->]. injection H as -> ->. left. split; auto.
    split; [apply prod_here; auto | discriminate].
Qed.

(* the elements appended to data: where they come from, and that each is new *)
Inductive appended (u : bool) (g : gen) (s0 s1 : gst) : list json -> list json -> Prop :=
| app_nil : forall data, appended u g s0 s1 data []
| app_ok : forall data v r, prod g v s0 s1 ->
    (u = true -> existsb (same_text (marshal v)) (map marshal data) = false) ->
    appended u g s0 s1 (data ++ [v]) r -> appended u g s0 s1 data (v :: r)
| app_warn : forall data r, u = true -> emitted EvUniqueFail s0 s1 ->
    appended u g s0 s1 (data ++ [JStr (uniqueWarning E)]) r ->
    appended u g s0 s1 data (JStr (uniqueWarning E) :: r).

Lemma appended_widen : forall u g a b data r a' b', appended u g a b data r -> after a' a -> after b b' ->
  appended u g a' b' data r.
Proof.
  intros u g a b data r a' b' H A B. induction H.
  - apply app_nil.
  - apply app_ok; auto. eapply prod_widen; eauto.
  - apply app_warn; auto. eapply emitted_widen; eauto.
Qed.

Lemma appended_step : forall u g data s v ok s' s'' r,
  genItem E G u g data s = Ok ((v, ok), s') -> after s' s'' ->
  appended u g s' s'' (data ++ [v]) r -> appended u g s s'' data (v :: r).
Proof.
  intros u g data s v ok s' s'' r H A R. pose proof (fwd_genItem _ _ _ _ _ _ H) as A0.
  apply genItem_ok in H. destruct H as [(_ & H1 & H2)|(H1 & _ & -> & H2)].
  - apply app_ok; auto.
    + eapply prod_widen; eauto. apply after_refl.
    + eapply appended_widen; eauto. apply after_refl.
  - apply app_warn; auto.
    + eapply emitted_widen; eauto. apply after_refl.
    + eapply appended_widen; eauto. apply after_refl.
Qed.

Lemma containsLoop_ok : forall n i k u g data s out s', k <= i + Z.of_nat n -> (k - i = Z.of_nat n \/ n = O) ->
  containsLoop E G n i k u g data s = Ok (out, s') ->
  exists r, out = (data ++ r)%list /\ appended u g s s' data r /\ List.length r = n.
Proof.
  induction n; intros i k u g data s out s' Hk Hk' H; simpl in H.
  - apply ret_ok in H. destruct H as [-> ->]. exists []. rewrite app_nil_r. repeat split. constructor.
  - stepM H. destruct a as [v ok]. destruct (negb ok && (k <? i)) eqn:C.
    + exfalso. apply andb_prop in C. destruct C as [_ C]. apply Z.ltb_lt in C. lia.
    + pose proof (fwd_containsLoop _ _ _ _ _ _ _ _ _ H) as A.
      apply IHn in H; try lia. destruct H as (r & -> & R & L).
      exists (v :: r). rewrite <- app_assoc. simpl. split; auto. split; [|lia].
      eapply appended_step; eauto.
Qed.

Lemma itemsLoop_ok : forall fuel i n mn u g data s out s', 0 <= i ->
  i <= Z.of_nat (List.length data) ->
  itemsLoop E G fuel i n mn u g data s = Ok (out, s') ->
  exists r, out = (data ++ r)%list /\ appended u g s s' data r /\
    mn <= Z.of_nat (List.length out) /\
    Z.of_nat (List.length r) <= Z.max 0 (Z.max (n - i) (mn - Z.of_nat (List.length data))).
Proof.
  induction fuel; intros i n mn u g data s out s' Hi Hl H; simpl in H; [discriminate|].
  destruct ((i <? n) || (Z.of_nat (List.length data) <? mn)) eqn:C.
  - stepM H. destruct a as [v ok]. destruct (negb ok && (mn <? i)) eqn:B.
    + apply ret_ok in H. destruct H as [-> ->]. exists []. rewrite app_nil_r.
      apply andb_prop in B. destruct B as [_ B]. apply Z.ltb_lt in B.
      repeat split; [constructor | lia | simpl; lia].
    + pose proof (fwd_itemsLoop _ _ _ _ _ _ _ _ _ _ H) as A.
      apply IHfuel in H; [|lia|rewrite app_length; simpl; lia]. destruct H as (r & -> & R & L1 & L2).
      exists (v :: r). rewrite <- app_assoc in *. simpl in *. split; auto. split; [|split].
      * eapply appended_step; eauto.
      * rewrite !app_length in *. simpl in *. lia.
      * rewrite app_length in L2. simpl in L2.
        apply orb_prop in C. destruct C as [C|C]; apply Z.ltb_lt in C; lia.
  - apply ret_ok in H. destruct H as [-> ->]. exists []. rewrite app_nil_r.
    apply orb_false_iff in C. destruct C as [_ C]. apply Z.ltb_ge in C.
    repeat split; [constructor | lia | simpl; lia].
Qed.

Definition arrMin (c : arrCfg) : Z := getInt (aMinItems c) (oDefaultArrayMinItems (eOpts E)).
Definition arrMax (c : arrCfg) : Z :=
  let mx0 := getInt (aMaxItems c) (oDefaultArrayMaxItems (eOpts E)) in
  if mx0 <? arrMin c then arrMin c + oDefaultArrayMaxItems (eOpts E) else mx0.
Definition arrContains (contains : option gen) (c : arrCfg) : Z :=
  match contains with Some _ => getInt (aMinContains c) 1 | None => 0 end.

Theorem genArray_ok : forall t i a c u cf s v s',
  0 <= arrContains c cf -> 0 <= aMinContains cf -> arrMax cf < 2 ^ 63 ->
  genArray E G t i a c u cf s = Ok (v, s') ->
  (v = JNull /\ emitted EvCutoff s s' /\ shouldCutoff (eOpts E) (gCx s + 1) = true) \/
  (exists tv cv rv s1 s2, v = JArr (tv ++ cv ++ rv)%list /\
     after s s1 /\ after s1 s2 /\ after s2 s' /\
     Forall2 (fun g x => prod g x s s') t tv /\
     (if aDisallowAdditional cf then cv = [] /\ rv = [] else
        match c with Some g => appended (aUnique cf) g s s' tv cv | None => cv = [] end /\
        Z.of_nat (List.length cv) = arrContains c cf /\
        appended (aUnique cf) (fillGen i a u (aUnique cf)) s s' (tv ++ cv)%list rv /\
        arrMin cf <= Z.of_nat (List.length (tv ++ cv ++ rv)) /\
        Z.of_nat (List.length rv) <=
          Z.max 0 (Z.max (arrMax cf - (Z.of_nat (List.length t) + aMinContains cf))
                         (arrMin cf - (Z.of_nat (List.length t) + arrContains c cf))) /\
        (aDisallowUnevaluated cf = true ->
         Z.of_nat (List.length rv) <= Z.max 0 (arrMin cf - (Z.of_nat (List.length t) + arrContains c cf))))).
Proof.
  intros t i a c u cf s v s' HC HM HX H. unfold genArray in H. apply guarded_ok in H.
  destruct H as [H|(s0 & A0 & H & _ & _)]; [left; exact H | right].
  stepM H. pose proof (fwd_genAll _ _ _ _ H0) as A1. pose proof (genAll_ok _ _ _ _ H0) as T.
  assert (LT : List.length t = List.length a0) by (eapply Forall2_len; eauto).
  destruct (aDisallowAdditional cf).
  { apply ret_ok in H. destruct H as [-> ->]. exists a0, [], [], s1, s1. rewrite !app_nil_r.
    split; auto. split; [eapply after_trans; eauto|]. split; [apply after_refl|]. split; [apply after_refl|].
    split; auto. eapply Forall2_impl; [|exact T]. intros x y P; eapply prod_widen; [exact P|auto|apply after_refl]. }
  stepM H. rename a1 into d2. rename H1 into HCl.
  assert (C : exists cv, d2 = (a0 ++ cv)%list /\
     match c with Some g => appended (aUnique cf) g s1 s2 a0 cv | None => cv = [] end /\
     Z.of_nat (List.length cv) = arrContains c cf /\ after s1 s2).
  { destruct c as [g|]; simpl arrContains in *.
    - pose proof (fwd_containsLoop _ _ _ _ _ _ _ _ _ HCl) as A. apply containsLoop_ok in HCl; [|lia..].
      destruct HCl as (r & -> & R & L). exists r. split; [|split; [|split]]; auto. lia.
    - apply ret_ok in HCl. destruct HCl as [-> ->]. exists []. rewrite app_nil_r. split; [|split; [|split]]; auto. apply after_refl. }
  destruct C as (cv & -> & C1 & C2 & A2).
  fold (arrMin cf) in H. fold (arrMax cf) in H.
  stepM H. pose proof (fwd_drawInt _ _ _ _ _ H1) as A3. rename H1 into Hd.
  stepM H. pose proof (fwd_minimize _ _ _ H1) as A4.
  stepM H. apply ret_ok in H. destruct H as [-> ->].
  pose proof (fwd_itemsLoop _ _ _ _ _ _ _ _ _ _ H2) as A5.
  apply itemsLoop_ok in H2; [|lia|lia]. destruct H2 as (rv & -> & R & L1 & L2).
  set (rem := maxInt2 0 (arrMax cf - (Z.of_nat (List.length t) + aMinContains cf))) in *.
  assert (Hrem : 0 <= rem <= Z.max 0 (arrMax cf - (Z.of_nat (List.length t) + aMinContains cf)) /\ rem < 2 ^ 63).
  { unfold rem, maxInt2. destruct (Z.ltb_spec 0 (arrMax cf - (Z.of_nat (List.length t) + aMinContains cf))); lia. }
  apply drawInt_ok_range in Hd; [|lia..].
  assert (A03 : after s s1) by (eapply after_trans; eauto).
  assert (A35 : after s2 s5) by (eapply after_trans; [exact A3|]; eapply after_trans; [exact A4|exact A5]).
  assert (A15 : after s1 s5) by (eapply after_trans; eauto).
  exists a0, cv, rv, s1, s2. rewrite <- !app_assoc in *. split; auto. split; auto. split; auto. split; auto.
  split; [|split; [|split; [|split; [|split; [|split]]]]].
  - eapply Forall2_impl; [|exact T]. intros x y P; eapply prod_widen; [exact P|auto|auto].
  - destruct c; auto. eapply appended_widen; eauto.
  - auto.
  - eapply appended_widen; [exact R| |apply after_refl].
    eapply after_trans; [exact A03|]. eapply after_trans; [exact A2|]. eapply after_trans; [exact A3|exact A4].
  - auto.
  - rewrite app_length in L2. destruct (aDisallowUnevaluated cf || a2); lia.
  - intros HD. rewrite HD in L2. simpl in L2. rewrite app_length in L2. lia.
Qed.

(* ------------------------------------------------------------------ objects *)
Section Objects.
Variable props : list (string * gen).
Variable patterns : list (string * (bool * gen)).
Variable additional : option gen.
Variable c : objCfg.

(* where a property of a generated object comes from *)
Inductive origin (s0 s1 : gst) (k : string) (v : json) : Prop :=
| or_declared : forall g, assoc k props = Some g -> prod g v s0 s1 -> origin s0 s1 k v
| or_undeclared : forall pre n, In k (bRequired c) -> assoc k props = None ->
    v = JStr (pre ++ "_" ++ k ++ "_" ++ itoa n) -> origin s0 s1 k v
| or_pattern : forall re g e, In (re, (true, g)) patterns -> eRegen E re e = Ok k -> prod g v s0 s1 ->
    origin s0 s1 k v
| or_badpattern : forall re g, In (re, (false, g)) patterns -> k = "" -> v = JNull -> origin s0 s1 k v
| or_additional : forall i g, 0 <= i -> patterns = [] -> bDisallowAdditional c = false -> additional = Some g ->
    k = "additional_" ++ itoa i -> prod g v s0 s1 -> origin s0 s1 k v
| or_fallback : forall i, 0 <= i -> patterns = [] -> bDisallowAdditional c = false -> additional = None ->
    oSuppressFallbackValues (eOpts E) = false -> k = "fallback_" ++ itoa i -> prod GNull v s0 s1 -> origin s0 s1 k v
| or_filler : forall i, 0 <= i -> (patterns <> [] \/ bDisallowAdditional c = false) ->
    (NoDup (bRequired c) -> Z.of_nat (List.length (bRequired c)) < objMin E c) ->
    k = "min_filler_" ++ itoa i -> prod (get_or additional GNull) v s0 s1 -> origin s0 s1 k v.

Lemma origin_widen : forall a b k v a' b', origin a b k v -> after a' a -> after b b' -> origin a' b' k v.
Proof.
  intros a b k v a' b' H A B. destruct H.
  - eapply or_declared; eauto using prod_widen.
  - eapply or_undeclared; eauto.
  - eapply or_pattern; eauto using prod_widen.
  - eapply or_badpattern; eauto.
  - eapply or_additional; eauto using prod_widen.
  - eapply or_fallback; eauto using prod_widen.
  - eapply or_filler; eauto using prod_widen.
Qed.

Definition good (s0 s1 : gst) (m : list (string * json)) : Prop :=
  NoDup (keys m) /\ forall k v, In (k, v) m -> origin s0 s1 k v.

Lemma good_widen : forall a b m a' b', good a b m -> after a' a -> after b b' -> good a' b' m.
Proof. intros a b m a' b' [H1 H2] A B. split; auto. intros. eapply origin_widen; eauto. Qed.

Lemma good_assign : forall a b m k v, good a b m -> origin a b k v -> good a b (massign k v m).
Proof.
  intros a b m k v [H1 H2] H. split.
  - now apply massign_NoDup.
  - intros k' v' HI. apply massign_In in HI. destruct HI as [[-> ->]|HI]; auto.
Qed.

(* one step of any of the loops below *)
Lemma good_next : forall s0 s s1 m k v, good s0 s m -> after s s1 -> after s0 s -> origin s s1 k v ->
  good s0 s1 (massign k v m).
Proof.
  intros. apply good_assign.
  - eapply good_widen; eauto. apply after_refl.
  - eapply origin_widen; eauto. apply after_refl.
Qed.

Lemma genKeys_ok : forall pre ks m s0 s m' s', good s0 s m -> after s0 s ->
  (forall k, In k ks -> In k (bRequired c) \/ assoc k props <> None) ->
  genKeys E G pre props ks m s = Ok (m', s') ->
  good s0 s' m' /\ (forall k, In k ks \/ In k (keys m) <-> In k (keys m')) /\
  Z.of_nat (List.length m') <= Z.of_nat (List.length m) + Z.of_nat (List.length ks).
Proof.
  induction ks as [|k r IH]; intros m s0 s m' s' Hg A Hk H; simpl in H.
  - apply ret_ok in H. destruct H as [-> ->]. split; auto. split; [intros; simpl; tauto|simpl; lia].
  - stepM H. pose proof (fwd_genKey _ _ _ _ _ _ H0) as A1.
    apply IH with (s0 := s0) in H; [|clear H| eapply after_trans; eauto | intros; apply Hk; now right].
    + destruct H as (H1 & H2 & H3). split; auto. split.
      * intros x. rewrite <- H2, massign_keys. simpl. intuition.
      * pose proof (massign_length_le _ k a m). simpl. lia.
    + eapply good_next; eauto. unfold genKey in H0.
      destruct (assoc k props) as [g|] eqn:L.
      * eapply or_declared; eauto. apply prod_here; auto.
      * stepM H0. apply ret_ok in H0. destruct H0 as [-> ->].
        eapply or_undeclared; eauto. destruct (Hk k (or_introl eq_refl)); congruence.
Qed.

Definition fillerKey (k : string) : Prop := exists i, 0 <= i /\ k = "min_filler_" ++ itoa i.

Lemma genPattern_ok : forall s k v s', patterns <> [] -> genPattern E G patterns s = Ok ((k, v), s') ->
  origin s s' k v.
Proof.
  intros s k v s' Hne H. unfold genPattern in H. destruct patterns as [|p0 r] eqn:P; [congruence|]. rewrite <- P in *. clear Hne.
  stepM H. stepM H. apply lift_ok in H1. destruct H1 as [H1 ->]. apply choice_In in H1. destruct a0 as [re [ok g]].
  destruct ok.
  - stepM H. stepM H. apply lift_ok in H3. destruct H3 as [H3 ->]. stepM H.
    apply ret_ok in H. destruct H as [H ->]. injection H as -> ->.
    eapply or_pattern; eauto. eapply prod_widen; [apply prod_here; eauto| |apply after_refl].
    eapply after_trans; [eapply fwd_draw; eauto | eapply fwd_globDraw; eauto].
  - apply ret_ok in H. destruct H as [H ->]. injection H as -> ->. eapply or_badpattern; eauto.
Qed.

Lemma patternLoop_ok : forall n m s0 s m' s', patterns <> [] -> good s0 s m -> after s0 s ->
  patternLoop E G n patterns m s = Ok (m', s') ->
  good s0 s' m' /\ (forall k, In k (keys m) -> In k (keys m')) /\
  (List.length m' <= List.length m + n)%nat.
Proof.
  induction n; intros m s0 s m' s' Hne Hg A H; cbn [patternLoop] in H.
  - apply ret_ok in H. destruct H as [-> ->]. split; auto. split; auto. lia.
  - stepM H. destruct a as [k v]. pose proof (fwd_genPattern _ _ _ _ H0) as A1.
    apply genPattern_ok in H0; auto.
    apply IHn with (s0 := s0) in H; auto; [|clear H|eapply after_trans; eauto].
    + destruct H as (H1 & H2 & H3). split; auto. split.
      * intros. apply H2. apply massign_keys. auto.
      * pose proof (massign_length_le _ k v m). lia.
    + eapply good_next; eauto.
Qed.

Lemma additionalLoop_ok : forall n i g m s0 s m' s', 0 <= i -> patterns = [] -> bDisallowAdditional c = false ->
  additional = Some g -> good s0 s m -> after s0 s ->
  additionalLoop G n i g m s = Ok (m', s') ->
  good s0 s' m' /\ (forall k, In k (keys m) -> In k (keys m')) /\
  (List.length m' <= List.length m + n)%nat.
Proof.
  induction n; intros i g m s0 s m' s' Hi Hp Hd Ha Hg A H; cbn [additionalLoop] in H.
  - apply ret_ok in H. destruct H as [-> ->]. split; auto. split; auto. lia.
  - stepM H. pose proof (HG _ _ _ _ H0) as A1.
    apply IHn with (s0 := s0) in H; auto; [|lia|clear H|eapply after_trans; eauto].
    + destruct H as (H1 & H2 & H3). split; auto. split.
      * intros. apply H2. apply massign_keys. auto.
      * pose proof (massign_length_le _ ("additional_" ++ itoa i) a m). lia.
    + eapply good_next; eauto. eapply or_additional; eauto. apply prod_here; auto.
Qed.

Lemma fallbackLoop_ok : forall n i mn m s0 s m' s', 0 <= i -> patterns = [] -> bDisallowAdditional c = false ->
  additional = None -> good s0 s m -> after s0 s ->
  fallbackLoop E G n i mn m s = Ok (m', s') ->
  good s0 s' m' /\ (forall k, In k (keys m) -> In k (keys m')) /\
  (List.length m' <= List.length m + n)%nat.
Proof.
  induction n; intros i mn m s0 s m' s' Hi Hp Hd Ha Hg A H; cbn [fallbackLoop] in H.
  - apply ret_ok in H. destruct H as [-> ->]. split; auto. split; auto. lia.
  - destruct (oSuppressFallbackValues (eOpts E) || (Z.of_nat (List.length m) <? mn)) eqn:C.
    + apply IHn with (s0 := s0) in H; auto; [|lia]. destruct H as (H1 & H2 & H3). split; auto. split; auto. lia.
    + apply orb_false_iff in C. destruct C as [C _].
      stepM H. pose proof (HG _ _ _ _ H0) as A1.
      apply IHn with (s0 := s0) in H; auto; [|lia|clear H|eapply after_trans; eauto].
      * destruct H as (H1 & H2 & H3). split; auto. split.
        -- intros. apply H2. apply massign_keys. auto.
        -- pose proof (massign_length_le _ ("fallback_" ++ itoa i) a m). lia.
      * eapply good_next; eauto. eapply or_fallback; eauto. apply prod_here; auto.
Qed.

Lemma fillerLoop_ok : forall n i m s0 s m' s', 0 <= i -> (patterns <> [] \/ bDisallowAdditional c = false) ->
  (NoDup (bRequired c) -> Z.of_nat (List.length (bRequired c)) < objMin E c) ->
  good s0 s m -> after s0 s ->
  fillerLoop G n i (get_or additional GNull) m s = Ok (m', s') ->
  good s0 s' m' /\ (forall k, In k (keys m) -> In k (keys m')) /\
  (List.length m' <= List.length m + n)%nat /\
  ((forall j, i <= j -> ~ In ("min_filler_" ++ itoa j) (keys m)) -> List.length m' = (List.length m + n)%nat).
Proof.
  induction n; intros i m s0 s m' s' Hi Hp Hq Hg A H; cbn [fillerLoop] in H.
  - apply ret_ok in H. destruct H as [-> ->]. split; auto. split; auto. split; lia.
  - stepM H. pose proof (HG _ _ _ _ H0) as A1.
    apply IHn with (s0 := s0) in H; auto; [|lia|clear H|eapply after_trans; eauto].
    + destruct H as (H1 & H2 & H3 & H4). split; auto. split; [|split].
      * intros. apply H2. apply massign_keys. auto.
      * pose proof (massign_length_le _ ("min_filler_" ++ itoa i) a m). lia.
      * intros Hn. rewrite H4.
        -- rewrite massign_length_new; [lia|]. apply Hn. lia.
        -- intros j Hj HI. apply massign_keys in HI. destruct HI as [HI|HI].
           ++ apply append_inj_l in HI. apply itoa_inj in HI. lia.
           ++ apply (Hn j); auto. lia.
    + eapply good_next; eauto. eapply or_filler; eauto. apply prod_here; auto.
Qed.

Lemma fillMinimum_ok : forall mn m s0 s v s', (patterns <> [] \/ bDisallowAdditional c = false) ->
  mn = objMin E c -> (forall k, In k (bRequired c) -> In k (keys m)) -> good s0 s m -> after s0 s -> fillMinimum G mn additional m s = Ok (v, s') ->
  exists m', v = JObj m' /\ good s0 s' m' /\ (forall k, In k (keys m) -> In k (keys m')) /\
   Z.of_nat (List.length m') <= Z.max (Z.of_nat (List.length m)) mn /\
   ((forall k, In k (keys m) -> ~ fillerKey k) -> mn <= Z.of_nat (List.length m')).
Proof.
  intros mn m s0 s v s' Hp Hmn Hq Hg A H. unfold fillMinimum in H.
  destruct (Z.ltb_spec (Z.of_nat (List.length m)) mn).
  - stepM H. apply ret_ok in H. destruct H as [-> ->].
    apply fillerLoop_ok with (s0 := s0) in H1; auto; [|lia|].
    2:{ intros NDr. pose proof (NoDup_incl_length NDr Hq) as L. unfold keys in L. rewrite map_length in L. lia. }
    destruct H1 as (H1 & H2 & H3 & H4).
    eexists; split; [reflexivity|]. split; auto. split; auto. split; [lia|].
    intros Hk. rewrite H4; [lia|]. intros j Hj HI. apply (Hk _ HI). exists j. split; auto. lia.
  - apply ret_ok in H. destruct H as [-> ->]. eexists; split; [reflexivity|]. split; auto. split; auto. split; lia.
Qed.

Lemma uniqString_loop_In : forall l seen x, In x (uniqString_loop seen l) <-> In x l /\ ~ In x seen.
Proof.
  induction l as [|y r IH]; intros seen x; simpl; [tauto|].
  destruct (mem_string y seen) eqn:M.
  - rewrite IH. apply mem_string_In in M. split; [tauto|]. intros [[->|H] H1]; tauto.
  - assert (~ In y seen) by (rewrite <- mem_string_In; congruence).
    simpl. rewrite IH. simpl. destruct (string_dec y x); [subst; tauto|]. split.
    + intros [H0|[H0 H1]]; [congruence|]. split; auto.
    + intros [[H0|H0] H1]; [congruence|]. right. split; auto. intros [?|?]; congruence.
Qed.
Lemma uniqString_In : forall l x, In x (uniqString l) <-> In x l.
Proof. intros. unfold uniqString. rewrite uniqString_loop_In. simpl. tauto. Qed.

Lemma shuffle_In : forall l ds x, In x (shuffle "" l ds) -> In x l.
Proof.
  unfold shuffle; intros l ds x H. apply in_map_iff in H. destruct H as (i & <- & H).
  apply perm_bound in H. now apply nth_In.
Qed.
Lemma perm_loop_length : forall n i ds m, (List.length m = i)%nat -> List.length (perm_loop i n ds m) = (i + n)%nat.
Proof.
  induction n; intros; cbn [perm_loop]; [lia|].
  rewrite IHn; [lia|]. unfold upd_nth.
  set (j := Z.to_nat (ds i mod Z.of_nat (S i))).
  assert (j <= i)%nat. { unfold j. pose proof (Z.mod_pos_bound (ds i) (Z.of_nat (S i)) ltac:(lia)). lia. }
  rewrite app_length, firstn_length. cbn [List.length]. rewrite skipn_length, app_length. simpl. lia.
Qed.
Lemma shuffle_length : forall l ds, List.length (shuffle "" l ds) = List.length l.
Proof. intros. unfold shuffle, perm. rewrite map_length, perm_loop_length; auto. Qed.

Lemma stringChoiceMultiple_ok : forall l n s v s', stringChoiceMultiple E l n s = Ok (v, s') ->
  (forall x, In x v -> In x l) /\ Z.of_nat (List.length v) = n.
Proof.
  intros l n s v s' H. unfold stringChoiceMultiple in H. stepM H.
  destruct ((n <? 0) || (Z.of_nat (List.length l) <? n)) eqn:C; [discriminate|].
  apply ret_ok in H. destruct H as [-> _]. apply orb_false_iff in C. destruct C as [C1 C2].
  apply Z.ltb_ge in C1, C2. split.
  - intros x Hx. apply shuffle_In with (ds := nthDraw a). eapply firstn_In; eauto.
  - rewrite firstn_length, shuffle_length. lia.
Qed.

Theorem genObject_ok : forall s v s', objOk E c ->
  genObject E G props patterns additional c s = Ok (v, s') ->
  (v = JNull /\ emitted EvCutoff s s' /\ shouldCutoff (eOpts E) (gCx s + 1) = true) \/
  (exists m, v = JObj m /\ good s s' m /\
     (forall k, In k (bRequired c) -> In k (keys m)) /\
     Z.of_nat (List.length m) <= Z.max (Z.of_nat (List.length (bRequired c))) (objMax E c) /\
     (* every property that reaches an object with a minimum, short of a clash of names *)
     ((patterns <> [] \/ bDisallowAdditional c = false) ->
      (forall k, In k (bRequired c) -> ~ fillerKey k) -> (forall k, In k (keys props) -> ~ fillerKey k) ->
      (forall re g e k, In (re, (true, g)) patterns -> eRegen E re e = Ok k -> ~ fillerKey k) ->
      objMin E c <= Z.of_nat (List.length m))).
Proof.
  intros s v s' [HO1 HO2] H. unfold genObject in H. apply guarded_ok in H.
  destruct H as [H|(s1 & A0 & H & _ & _)]; [left; exact H | right].
  stepM H. rename a into m1. pose proof (fwd_genKeys _ _ _ _ _ _ _ H0) as A1.
  apply genKeys_ok with (s0 := s1) in H0; [|split; [constructor|simpl; tauto]|apply after_refl|auto].
  destruct H0 as (G1 & K1 & L1). cbn [List.length] in L1.
  fold (objMin E c) in H. fold (objMax E c) in H.
  set (nreq := Z.of_nat (List.length (bRequired c))) in *.
  set (mnE := maxInt2 0 (objMin E c - nreq)) in *. set (mxE := maxInt2 0 (objMax E c - nreq)) in *.
  assert (HE : 0 <= mnE <= mxE /\ mxE < 2 ^ 63 /\ mxE = Z.max 0 (objMax E c - nreq)).
  { unfold mnE, mxE, maxInt2, nreq in *.
    destruct (Z.ltb_spec 0 (objMin E c - Z.of_nat (List.length (bRequired c))));
    destruct (Z.ltb_spec 0 (objMax E c - Z.of_nat (List.length (bRequired c)))); lia. }
  stepM H. pose proof (fwd_drawInt _ _ _ _ _ H0) as A2. apply drawInt_ok_range in H0; [|lia..].
  stepM H. pose proof (fwd_minimize _ _ _ H1) as A3. clear H1.
  set (target := if a0 then mnE else a) in *.
  assert (HT : 0 <= target <= mxE) by (unfold target; destruct a0; lia).
  stepM H. pose proof (fwd_stringChoiceMultiple _ _ _ _ _ H1) as A4.
  apply stringChoiceMultiple_ok in H1. destruct H1 as [P1 P2].
  stepM H. rename a2 into m2. pose proof (fwd_genKeys _ _ _ _ _ _ _ H1) as A5.
  assert (A25 : after s0 s4) by (eapply after_trans; [exact A2|]; eapply after_trans; [exact A3|exact A4]).
  apply genKeys_ok with (s0 := s1) in H1.
  2:{ eapply good_widen; [exact G1|apply after_refl|auto]. }
  2:{ eapply after_trans; [exact A1|exact A25]. }
  2:{ intros k Hk. apply P1 in Hk. rewrite uniqString_In in Hk. apply in_app_or in Hk. destruct Hk as [Hk|Hk]; auto.
      right. intro X. apply assoc_None in X. auto. }
  destruct H1 as (G2 & K2 & L2).
  assert (A16 : after s1 s5) by (eapply after_trans; [exact A1|]; eapply after_trans; [exact A25|exact A5]).
  assert (HR : forall k, In k (bRequired c) -> In k (keys m2)).
  { intros k Hk. apply K2. right. apply K1. auto. }
  assert (HL : Z.of_nat (List.length m2) + Z.of_nat (Z.to_nat (target - Z.of_nat (List.length a1))) <= Z.max nreq (objMax E c)).
  { rewrite P2. unfold minInt2 in *. destruct (Z.ltb_spec target (Z.of_nat (List.length (uniqString (bRequired c ++ keys props)))));
    lia. }
  assert (HK2 : forall k, In k (keys m2) -> In k (bRequired c) \/ In k (keys props)).
  { intros k Hk. apply K2 in Hk. destruct Hk as [Hk|Hk].
    - apply P1 in Hk. rewrite uniqString_In in Hk. apply in_app_or in Hk. auto.
    - apply K1 in Hk. simpl in Hk. destruct Hk as [Hk|[]]; auto. }
  clear P1 P2 L1 L2 K1 K2 G1.
  assert (FIN : forall m3 s7, good s1 s7 m3 -> (forall k, In k (keys m2) -> In k (keys m3)) ->
     after s1 s7 -> (patterns <> [] \/ bDisallowAdditional c = false) ->
     Z.of_nat (List.length m3) <= Z.max nreq (objMax E c) ->
     fillMinimum G (objMin E c) additional m3 s7 = Ok (v, s') ->
     (forall k, In k (keys m3) -> fillerKey k -> In k (keys m2) \/ exists re g e, In (re, (true, g)) patterns /\ eRegen E re e = Ok k) ->
     exists m, v = JObj m /\ good s s' m /\ (forall k, In k (bRequired c) -> In k (keys m)) /\
     Z.of_nat (List.length m) <= Z.max nreq (objMax E c) /\
     ((patterns <> [] \/ bDisallowAdditional c = false) ->
      (forall k, In k (bRequired c) -> ~ fillerKey k) -> (forall k, In k (keys props) -> ~ fillerKey k) ->
      (forall re g e k, In (re, (true, g)) patterns -> eRegen E re e = Ok k -> ~ fillerKey k) ->
      objMin E c <= Z.of_nat (List.length m))).
  { intros m3 s7 Hg Hk A7 Hp HL3 HF HKeys. apply fillMinimum_ok with (s0 := s1) in HF; auto.
    destruct HF as (m & -> & F1 & F2 & F3 & F4). exists m. split; auto. split.
    { eapply good_widen; [exact F1|auto|apply after_refl]. } split; auto. split; [lia|].
    intros _ N1 N2 N3. apply F4. intros k HkI HkF. destruct (HKeys k HkI HkF) as [X|(re & g & e & X1 & X2)].
    - apply HK2 in X. destruct X; [eapply N1 | eapply N2]; eauto.
    - eapply N3; eauto. }
  assert (NF : forall m3 s7, good s1 s7 m3 -> (patterns = [] -> forall k, In k (keys m3) -> In k (keys m2) \/
      (exists i, k = "additional_" ++ itoa i) \/ (exists i, k = "fallback_" ++ itoa i)) -> True) by auto.
  destruct patterns as [|q r] eqn:EP.
  - destruct (bDisallowAdditional c) eqn:ED.
    + apply ret_ok in H. destruct H as [-> ->]. exists m2. split; auto. split.
      { eapply good_widen; [exact G2|auto|apply after_refl]. }
      split; auto. split; [lia|]. intros [X|X]; congruence.
    + assert (KIND : forall m3 s7 (pre : string), good s1 s7 m3 ->
         (forall k, In k (keys m3) -> In k (keys m2) \/ exists i, k = pre ++ itoa i) ->
         (forall i j, pre ++ itoa i <> "min_filler_" ++ itoa j) ->
         (forall k, In k (keys m3) -> fillerKey k -> In k (keys m2) \/ exists re g e, In (re, (true, g)) (@nil (string * (bool * gen))) /\ eRegen E re e = Ok k)).
      { intros m3 s7 pre _ HA HB k Hk (i & Hi & Hf). destruct (HA k Hk) as [X|(j & X)]; auto.
        subst k. exfalso. eapply HB; eauto. }
      destruct additional as [g|] eqn:EA.
      * stepM H. rename a2 into m3. pose proof (fwd_additionalLoop _ _ _ _ _ _ _ H1) as A7.
        assert (K3 : forall n i m s m' s', additionalLoop G n i g m s = Ok (m', s') ->
           forall k, In k (keys m') -> In k (keys m) \/ exists i, k = "additional_" ++ itoa i).
        { clear. induction n; intros i m s m' s' H k Hk; cbn [additionalLoop] in H.
          - apply ret_ok in H. destruct H as [-> ->]. auto.
          - stepM H. eapply IHn in H; eauto. destruct H as [H|H]; auto.
            apply massign_keys in H. destruct H; eauto. }
        pose proof (K3 _ _ _ _ _ _ H1) as K3'.
        apply additionalLoop_ok with (s0 := s1) in H1; auto; [|lia].
        destruct H1 as (G3 & I3 & L3). eapply FIN; eauto; [eapply after_trans; eauto | lia |].
        eapply KIND; eauto. intros i j X. discriminate X.
      * stepM H. rename a2 into m3. pose proof (fwd_fallbackLoop _ _ _ _ _ _ _ H1) as A7.
        assert (K3 : forall n i mn m s m' s', fallbackLoop E G n i mn m s = Ok (m', s') ->
           forall k, In k (keys m') -> In k (keys m) \/ exists i, k = "fallback_" ++ itoa i).
        { clear. induction n; intros i mn m s m' s' H k Hk; cbn [fallbackLoop] in H.
          - apply ret_ok in H. destruct H as [-> ->]. auto.
          - destruct (oSuppressFallbackValues (eOpts E) || (Z.of_nat (List.length m) <? mn)).
            + eapply IHn in H; eauto.
            + stepM H. eapply IHn in H; eauto. destruct H as [H|H]; auto.
              apply massign_keys in H. destruct H; eauto. }
        pose proof (K3 _ _ _ _ _ _ _ H1) as K3'.
        apply fallbackLoop_ok with (s0 := s1) in H1; auto; [|lia].
        destruct H1 as (G3 & I3 & L3). eapply FIN; eauto; [eapply after_trans; eauto | lia |].
        eapply KIND; eauto. intros i j X. discriminate X.
  - stepM H. rename a2 into m3. pose proof (fwd_patternLoop _ _ _ _ _ _ H1) as A7. rewrite <- EP in *.
    assert (K3 : forall n m s m' s', patterns <> [] -> patternLoop E G n patterns m s = Ok (m', s') ->
       forall k, In k (keys m') -> In k (keys m) \/ k = "" \/ exists re g e, In (re, (true, g)) patterns /\ eRegen E re e = Ok k).
    { clear. induction n; intros m s m' s' Hne H k Hk; cbn [patternLoop] in H.
      - apply ret_ok in H. destruct H as [-> ->]. auto.
      - stepM H. destruct a as [k0 v0]. eapply IHn in H; eauto. destruct H as [H|H]; auto.
        apply massign_keys in H. destruct H as [H|H]; auto. subst.
        unfold genPattern in H0. destruct patterns as [|p0 r0] eqn:P; [congruence|]. rewrite <- P in *.
        stepM H0. stepM H0. match goal with L : lift _ _ = _ |- _ => apply lift_ok in L; destruct L as [L ->]; apply choice_In in L end.
        destruct a0 as [re [ok g]]. destruct ok.
        + stepM H0. stepM H0. match goal with L : lift _ _ = _ |- _ => apply lift_ok in L; destruct L as [L ->] end. stepM H0.
          apply ret_ok in H0. destruct H0 as [H0 ->]. injection H0 as -> ->. right. right. eauto.
        + apply ret_ok in H0. destruct H0 as [H0 ->]. injection H0 as -> ->. auto. }
    assert (HNE : patterns <> []) by (rewrite EP; discriminate).
    pose proof (K3 _ _ _ _ _ HNE H1) as K3'.
    apply patternLoop_ok with (s0 := s1) in H1; auto.
    destruct H1 as (G3 & I3 & L3). eapply FIN; eauto; [eapply after_trans; eauto | lia |].
    intros k Hk (i & Hi & Hf). destruct (K3' k Hk) as [X|[X|X]]; auto. subst. discriminate X.
Qed.
End Objects.

(* ------------------------------------------------------------------ choices *)
Theorem genOneOf_ok : forall gs s v s', genOneOf E G gs s = Ok (v, s') ->
  exists g, In g gs /\ prod g v s s'.
Proof.
  intros gs s v s' H. unfold genOneOf in H. stepM H.
  destruct (nth_error gs (Z.to_nat a)) as [g|] eqn:N; [|discriminate].
  exists g. split; [eapply nth_error_In; eauto|].
  eapply prod_widen; [apply prod_here; eauto| |apply after_refl]. eapply fwd_drawInt; eauto.
Qed.

(* ------------------------------------------------------------------ constraints *)
Theorem multiTry_ok : forall n c g v s w s', multiTry E G n c g v s = Ok (w, s') ->
  (multiPassed E c w = true /\ (w = v \/ prod g w s s')) \/
  (w = JStr multiFailure /\ emitted EvConstraintFail s s').
Proof.
  induction n; intros c g v s w s' H; simpl in H.
  - stepM H. unfold emit in H0. injection H0 as <- <-. apply ret_ok in H. destruct H as [-> ->]. right. auto using emitted_emit.
  - destruct (multiPassed E c v) eqn:P.
    + apply ret_ok in H. destruct H as [-> ->]. auto.
    + stepM H. pose proof (HG _ _ _ _ H0) as A.
      assert (A' : after s0 s').
      { apply (fwd_of_inv _ (multiTry E G n c g a)) with (2 := H). intros. apply inv_multiTry; auto using stable_after, invG. }
      apply IHn in H. destruct H as [[H1 [->|H2]]|[-> H]];
        [| |right; split; auto; eapply emitted_widen; eauto; apply after_refl]; left; split; auto; right.
      * eapply prod_widen; [apply prod_here; eauto|apply after_refl|auto].
      * eapply prod_widen; [exact H2|auto|apply after_refl].
Qed.

Theorem oneOfTry_ok : forall n l g v s w s', oneOfTry E G n l g v s = Ok (w, s') ->
  (oneOfPassed E l w = true /\ (w = v \/ prod g w s s')) \/
  (w = JStr oneOfFailure /\ emitted EvOneOfFail s s').
Proof.
  induction n; intros c g v s w s' H; simpl in H.
  - stepM H. unfold emit in H0. injection H0 as <- <-. apply ret_ok in H. destruct H as [-> ->]. right. auto using emitted_emit.
  - stepM H. pose proof (fwd_tick _ _ _ H0) as AT. destruct (oneOfPassed E c v) eqn:P.
    + apply ret_ok in H. destruct H as [-> ->]. auto.
    + stepM H. pose proof (HG _ _ _ _ H1) as A.
      assert (A' : after s1 s').
      { apply (fwd_of_inv _ (oneOfTry E G n c g a0)) with (2 := H). intros. apply inv_oneOfTry; auto using stable_after, invG. }
      apply IHn in H. destruct H as [[H2 [->|H3]]|[-> H]];
        [| |right; split; auto; eapply emitted_widen; [exact H|eapply after_trans; eauto|apply after_refl]]; left; split; auto; right.
      * eapply prod_widen; [apply prod_here; eauto|auto|auto].
      * eapply prod_widen; [exact H3|eapply after_trans; eauto|apply after_refl].
Qed.

(* one if-constraint: the value was already on the side the absence of a branch allows, or it was
   regenerated from the branch of the side it is on *)
Definition ifSide (k : schemaNode * (option gen * option gen)) (v w : json) (s0 s1 : gst) : Prop :=
  let '(cond, (th, el)) := k in
  (eValid E cond w = true /\ ((th = None /\ w = v) \/ exists g, th = Some g /\ prod g w s0 s1)) \/
  (eValid E cond w = false /\ ((el = None /\ w = v) \/ exists g, el = Some g /\ prod g w s0 s1)).

Lemma ifAttempt_ok : forall k v s w s', ifAttempt E G k v s = Ok (Some w, s') -> ifSide k v w s s'.
Proof.
  intros [cond [th el]] v s w s' H. unfold ifAttempt in H. unfold ifSide. destruct (eValid E cond v) eqn:V.
  - left. destruct th as [g|].
    + stepM H. apply ret_ok in H. destruct H as [H ->]. destruct (eValid E cond a) eqn:V2; [|discriminate].
      injection H as <-. split; auto. right. exists g. split; auto. apply prod_here; auto.
    + apply ret_ok in H. destruct H as [H ->]. injection H as <-. auto.
  - right. destruct el as [g|].
    + stepM H. apply ret_ok in H. destruct H as [H ->]. destruct (eValid E cond a) eqn:V2; [discriminate|].
      injection H as <-. split; auto. right. exists g. split; auto. apply prod_here; auto.
    + apply ret_ok in H. destruct H as [H ->]. injection H as <-. auto.
Qed.

Lemma ifSide_widen : forall k v w a b a' b', ifSide k v w a b -> after a' a -> after b b' -> ifSide k v w a' b'.
Proof.
  intros [cond [th el]] v w a b a' b' H A B. unfold ifSide in *.
  destruct H as [[H1 [H2|(g & H2 & H3)]]|[H1 [H2|(g & H2 & H3)]]]; [left|left|right|right]; split; auto; right;
  exists g; split; auto; eapply prod_widen; eauto.
Qed.

(* a single if-constraint that did not give up ends on one side, with a value generated for it or,
   when that side has no branch, with a value the other generators of the schema produced *)
Theorem ifTry_single : forall n k g v s w s', ifTry E G n [k] g v s = Ok (w, s') ->
  (exists u, (u = v \/ prod g u s s') /\ ifSide k u w s s') \/
  (w = JStr ifFailure /\ emitted EvIfFail s s').
Proof.
  induction n; intros k g v s w s' H; cbn [ifTry] in H.
  - stepM H. unfold emit in H0. injection H0 as <- <-. apply ret_ok in H. destruct H as [-> ->]. right. auto using emitted_emit.
  - stepM H. pose proof (fwd_tick _ _ _ H0) as A1.
    stepM H. pose proof (fwd_draws _ _ _ _ H1) as A2. clear H0 H1.
    assert (HP : perm (List.length [k]) (nthDraw a0) = [0%nat]).
    { unfold perm, perm_loop. cbn [List.length]. unfold upd_nth. cbn [Z.of_nat Pos.of_succ_nat].
      rewrite Z.mod_1_r. reflexivity. }
    rewrite HP in H. stepM H. cbn [ifPass nth_error] in H0. stepM H0.
    assert (A3 : after s1 s3).
    { apply (fwd_of_inv _ (ifAttempt E G k v)) with (2 := H1). intros. destruct k as [? [? ?]].
      apply inv_ifAttempt; auto using stable_after, invG. }
    destruct a2 as [u|].
    + apply ret_ok in H0. destruct H0 as [-> ->]. apply ret_ok in H. destruct H as [-> ->].
      apply ifAttempt_ok in H1. left. exists v. split; auto. eapply ifSide_widen; eauto; [|apply after_refl].
      eapply after_trans; eauto.
    + apply ret_ok in H0. destruct H0 as [-> ->]. stepM H. pose proof (HG _ _ _ _ H0) as A4.
      assert (A' : after s2 s').
      { apply (fwd_of_inv _ (ifTry E G n [k] g a1)) with (2 := H). intros.
        apply inv_ifTry; auto using stable_after, invG. }
      assert (A03 : after s s3) by (eapply after_trans; [exact A1|]; eapply after_trans; eauto).
      apply IHn in H. destruct H as [(u & U1 & U2)|[-> H]];
        [|right; split; auto; eapply emitted_widen; [exact H|eapply after_trans; eauto|apply after_refl]]. left. exists u. split.
      * right. destruct U1 as [->|U1].
        -- eapply prod_widen; [apply prod_here; eauto|auto|auto].
        -- eapply prod_widen; [exact U1| eapply after_trans; eauto | apply after_refl].
      * eapply ifSide_widen; eauto; [|apply after_refl]. eapply after_trans; eauto.
Qed.
End Values.
