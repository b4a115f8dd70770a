(* Generic reasoning about the generation monad: what every Generate call preserves. *)
From Coq Require Import ZArith List String Bool Lia.
From Flocq Require Import Core BinarySingleNaN.
From Verif Require Import Base Float64 Json Schema Util Rand Options Number NumberFacts Gen.
Import ListNotations.
Open Scope string_scope.
Open Scope Z_scope.

Lemma bindM_ok : forall A B (m : M A) (k : A -> M B) s b s',
  bindM m k s = Ok (b, s') -> exists a s1, m s = Ok (a, s1) /\ k a s1 = Ok (b, s').
Proof. unfold bindM; intros. destruct (m s) as [[a s1]| |]; try discriminate. eauto. Qed.

Lemma lift_ok : forall A (r : res A) s a s', lift r s = Ok (a, s') -> r = Ok a /\ s' = s.
Proof. unfold lift; intros. destruct r; try discriminate. injection H as <- <-; auto. Qed.

Lemma ret_ok : forall A (v : A) s a s', ret v s = Ok (a, s') -> a = v /\ s' = s.
Proof. unfold ret; intros. injection H as <- <-; auto. Qed.

(* take apart one step of a computation that succeeded *)
Ltac stepM H :=
  let a := fresh "a" in let s := fresh "s" in let H1 := fresh H in
  apply bindM_ok in H; destruct H as (a & s & H1 & H).

(* ------------------------------------------------------------------ sub-generators *)

Inductive child : gen -> gen -> Prop :=
| ch_tuple : forall g t i a c u cf, In g t -> child g (GArray t i a c u cf)
| ch_item : forall g t a c u cf, child g (GArray t (Some g) a c u cf)
| ch_addl : forall g t i c u cf, child g (GArray t i (Some g) c u cf)
| ch_cont : forall g t i a u cf, child g (GArray t i a (Some g) u cf)
| ch_unev : forall g t i a c cf, child g (GArray t i a c (Some g) cf)
| ch_fill_null : forall t i a c u cf, child GNull (GArray t i a c u cf)
| ch_fill_str : forall t i a c u cf, child (GString "" "" 0 0) (GArray t i a c u cf)
| ch_prop : forall k g p pp a cf, In (k, g) p -> child g (GObject p pp a cf)
| ch_pat : forall k b g p pp a cf, In (k, (b, g)) pp -> child g (GObject p pp a cf)
| ch_add : forall g p pp cf, child g (GObject p pp (Some g) cf)
| ch_fallback : forall p pp a cf, child GNull (GObject p pp a cf)
| ch_multi : forall g gs, In g gs -> child g (GMulti gs)
| ch_comb : forall g gs, In g gs -> child g (GComb gs)
| ch_allof : forall g, child g (GAllOf g)
| ch_constr : forall g cs, child g (GConstrained g cs)
| ch_then : forall g0 cs l c g e, In (CIf l) cs -> In (c, (Some g, e)) l -> child g (GConstrained g0 cs)
| ch_else : forall g0 cs l c t g, In (CIf l) cs -> In (c, (t, Some g)) l -> child g (GConstrained g0 cs).

Lemma fillGen_cases : forall i a u q,
  (i = Some (fillGen i a u q)) \/ (a = Some (fillGen i a u q)) \/ (u = Some (fillGen i a u q)) \/
  fillGen i a u q = GNull \/ fillGen i a u q = GString "" "" 0 0.
Proof. intros [?|] [?|] [?|] [|]; simpl; auto. Qed.

Lemma fillGen_child : forall t i a c u cf, child (fillGen i a u (aUnique cf)) (GArray t i a c u cf).
Proof.
  intros. unfold fillGen. destruct i; [apply ch_item|]. destruct a; [apply ch_addl|].
  destruct u; [apply ch_unev|]. destruct (aUnique cf); [apply ch_fill_str | apply ch_fill_null].
Qed.

(* ------------------------------------------------------------------ unary invariants *)

Definition isEnter (e : event) : bool := match e with EvEnter _ _ => true | _ => false end.

(* P survives the primitive state changes *)
Record stable (P : gst -> Prop) : Prop := {
  st_tick : forall s, P s -> P (mkG (gPos s) (gGlob s) (gCx s + 1) (gStack s) (gLog s));
  st_pos : forall s n, P s -> P (mkG (gPos s + n) (gGlob s) (gCx s) (gStack s) (gLog s));
  st_glob : forall s n, P s -> P (mkG (gPos s) (gGlob s + n) (gCx s) (gStack s) (gLog s));
  st_emit : forall s e, isEnter e = false -> P s -> P (mkG (gPos s) (gGlob s) (gCx s) (gStack s) (e :: gLog s)) }.

Section Inv.
Variable E : env.
Variables (PA TO : Prop).           (* are panics / running out of fuel acceptable outcomes? *)
Variable P : gst -> Prop.
Hypothesis HP : stable P.

Definition inv {A} (m : M A) : Prop :=
  forall s, P s -> match m s with Ok (_, s') => P s' | Panic _ => PA | Timeout => TO end.

Lemma inv_ret : forall A (a : A), inv (ret a).
Proof. unfold inv, ret; auto. Qed.

Lemma inv_bind : forall A B (m : M A) (k : A -> M B), inv m -> (forall a, inv (k a)) -> inv (bindM m k).
Proof.
  unfold inv, bindM; intros. specialize (H s H1). destruct (m s) as [[a s1]| |]; auto.
  apply H0; auto.
Qed.

(* the same when the continuation needs to know what the first part returned *)
Lemma inv_bind_post : forall A B (m : M A) (k : A -> M B),
  inv m -> (forall a, (exists s s', m s = Ok (a, s')) -> inv (k a)) -> inv (bindM m k).
Proof.
  unfold inv, bindM; intros. specialize (H s H1). destruct (m s) as [[a s1]| |] eqn:E1; auto.
  apply H0; eauto.
Qed.

Lemma inv_lift_ok : forall A (a : A), inv (lift (Ok a)).
Proof. unfold inv, lift; auto. Qed.

Lemma inv_lift_panic : forall A w, PA -> inv (@lift A (Panic w)).
Proof. unfold inv, lift; auto. Qed.

Lemma inv_lift_timeout : forall A, TO -> inv (@lift A Timeout).
Proof. unfold inv, lift; auto. Qed.

Lemma inv_lift : forall A (r : res A),
  (forall w, r = Panic w -> PA) -> (r = Timeout -> TO) -> inv (lift r).
Proof. unfold inv, lift; intros. destruct r; eauto. Qed.

Lemma inv_tick : inv tick.
Proof. unfold inv, tick; intros; apply (st_tick _ HP); auto. Qed.
Lemma inv_emit : forall e, isEnter e = false -> inv (emit e).
Proof. unfold inv, emit; intros; apply (st_emit _ HP); auto. Qed.
Lemma inv_getCx : inv getCx.
Proof. unfold inv, getCx; auto. Qed.
Lemma inv_getStack : inv getStack.
Proof. unfold inv, getStack; auto. Qed.
Lemma inv_draw : inv (draw E).
Proof.
  unfold inv, draw; intros. replace (S (gPos s)) with (gPos s + 1)%nat by lia.
  apply (st_pos _ HP); auto.
Qed.
Lemma inv_globDraw : inv (globDraw E).
Proof.
  unfold inv, globDraw; intros. replace (S (gGlob s)) with (gGlob s + 1)%nat by lia.
  apply (st_glob _ HP); auto.
Qed.
Lemma inv_draws : forall n, inv (draws E n).
Proof. unfold inv, draws; intros; apply (st_pos _ HP); auto. Qed.
Lemma inv_globDraws : forall n, inv (globDraws E n).
Proof. unfold inv, globDraws; intros; apply (st_glob _ HP); auto. Qed.

Lemma inv_cutoff : inv (cutoff E).
Proof. apply inv_bind; [apply inv_getCx | intros; apply inv_ret]. Qed.
Lemma inv_minimize : inv (minimize E).
Proof. apply inv_bind; [apply inv_getCx | intros; apply inv_ret]. Qed.
Lemma inv_budget : forall b, inv (budget E b).
Proof. intros; apply inv_bind; [apply inv_getCx | intros; apply inv_ret]. Qed.

Lemma inv_guarded : forall m, inv m -> inv (guarded E m).
Proof.
  intros. apply inv_bind; [apply inv_tick|]. intros _. apply inv_bind; [apply inv_cutoff|].
  intros [|]; auto. apply inv_bind; [apply inv_emit; reflexivity | intros; apply inv_ret].
Qed.

(* RandomInt does not panic on an ordered range that fits *)
Lemma randomInt_no_panic : forall mn mx d, mn <= mx -> mx - mn < 2 ^ 63 ->
  exists v, randomInt mn mx d = Ok v.
Proof.
  intros. unfold randomInt. destruct (Z.eqb_spec mn mx); [eauto|].
  unfold intn. rewrite wrap64_id by lia. destruct (Z.leb_spec (mx - mn) 0); [lia|].
  simpl. eauto.
Qed.

Lemma randomInt_no_timeout : forall mn mx d, randomInt mn mx d <> Timeout.
Proof.
  intros. unfold randomInt. destruct (mn =? mx); [discriminate|].
  unfold intn. destruct (wrap64 (mx - mn) <=? 0); simpl; discriminate.
Qed.

Lemma inv_drawInt : forall mn mx, PA \/ (mn <= mx /\ mx - mn < 2 ^ 63) -> inv (drawInt E mn mx).
Proof.
  intros. unfold drawInt. destruct (mn =? mx); [apply inv_ret|].
  apply inv_bind; [apply inv_draw|]. intros d. apply inv_lift.
  - intros w Hw. destruct H as [H|[H1 H2]]; auto.
    destruct (randomInt_no_panic mn mx d H1 H2) as [v Hv]. congruence.
  - intro. elim (randomInt_no_timeout mn mx d); auto.
Qed.

Lemma choice_timeout : forall A (l : list A) d, choice l d <> Timeout.
Proof.
  intros. unfold choice, intn. destruct (Z.of_nat (List.length l) <=? 0); simpl; [discriminate|].
  destruct (nth_error l _); discriminate.
Qed.

Lemma choice_no_panic : forall A (l : list A) d, l <> [] -> exists x, choice l d = Ok x.
Proof.
  intros. unfold choice, intn.
  assert (Hl : (0 < List.length l)%nat) by (destruct l; simpl; [congruence | lia]).
  destruct (Z.leb_spec (Z.of_nat (List.length l)) 0); [lia|]. simpl.
  pose proof (Z.mod_pos_bound d (Z.of_nat (List.length l)) ltac:(lia)).
  destruct (nth_error l _) eqn:N; [eauto|]. apply nth_error_None in N. lia.
Qed.

Lemma choice_In : forall A (l : list A) d x, choice l d = Ok x -> In x l.
Proof.
  unfold choice; intros. apply bind_ok in H. destruct H as (i & _ & H).
  destruct (nth_error l (Z.to_nat i)) eqn:N; [|discriminate]. injection H as <-.
  eapply nth_error_In; eauto.
Qed.

Lemma inv_choice : forall A (l : list A) d, PA \/ l <> [] -> inv (lift (choice l d)).
Proof.
  intros. apply inv_lift.
  - intros w Hw. destruct H; auto. destruct (choice_no_panic _ l d H). congruence.
  - intro. elim (choice_timeout _ l d); auto.
Qed.

(* ---- strings *)
Lemma inv_fillString : forall fuel mn acc,
  TO \/ ((forall d, eSentence E d <> "") /\ mn - Z.of_nat (String.length acc) < Z.of_nat fuel /\ (0 < fuel)%nat) ->
  inv (fillString E fuel mn acc).
Proof.
  induction fuel; intros mn acc H; simpl.
  - apply inv_lift_timeout. destruct H as [H|(_ & _ & H)]; auto. lia.
  - destruct (Z.ltb_spec (Z.of_nat (String.length acc)) mn); [|apply inv_ret].
    apply inv_bind; [apply inv_globDraw|]. intros d. apply IHfuel.
    destruct H as [H|(H1 & H2 & _)]; [left; auto|right]. split; auto.
    rewrite append_length. specialize (H1 d). destruct (eSentence E d); [congruence|].
    simpl String.length. lia.
Qed.

Lemma inv_generateFormat : forall f, inv (generateFormat E f).
Proof.
  intros. unfold generateFormat. destruct (String.eqb f "duration").
  - apply inv_bind; [apply inv_drawInt; right; lia | intros; apply inv_ret].
  - destruct (mem_string f fakerFormats).
    + apply inv_bind; [apply inv_globDraw | intros; apply inv_ret].
    + apply inv_bind; [apply inv_emit; reflexivity | intros; apply inv_ret].
Qed.

(* what a regex generator may do *)
Definition regenOk : Prop :=
  (forall p d w, eRegen E p d = Panic w -> PA) /\ (forall p d, eRegen E p d = Timeout -> TO).

Lemma inv_regen : forall p d, regenOk -> inv (lift (eRegen E p d)).
Proof. intros p d [H1 H2]. apply inv_lift; eauto. Qed.

Lemma inv_genString : forall f p mn mx, regenOk -> TO \/ (forall d, eSentence E d <> "") ->
  inv (genString E f p mn mx).
Proof.
  intros. unfold genString. apply inv_bind; [apply inv_tick|]. intros _.
  destruct (negb (String.eqb f "")); [apply inv_generateFormat|].
  destruct (negb (String.eqb p "")).
  - apply inv_bind; [apply inv_globDraw|]. intros d. apply inv_bind; [apply inv_regen; auto|].
    intros; apply inv_ret.
  - apply inv_bind; [apply inv_globDraw|]. intros d. apply inv_bind; [|intros; apply inv_ret].
    apply inv_fillString. destruct H0; auto. right; repeat split; auto; lia.
Qed.

Lemma generateMultipleOf_timeout : forall a b c d, generateMultipleOf a b c d <> Timeout.
Proof.
  intros a b c d H. unfold generateMultipleOf in H.
  destruct (countMultiplesInRange a b c =? 0); [discriminate H|].
  apply bind_timeout in H. destruct H as [H|(x & _ & H)]; [|discriminate H].
  elim (randomInt_no_timeout _ _ _ H).
Qed.

Lemma numberGenerate_timeout : forall g d, numberGenerate g d <> Timeout.
Proof.
  intros g d H. unfold numberGenerate in H. apply bind_timeout in H.
  destruct H as [H|(a & _ & H)]; [|discriminate H].
  unfold numberRaw in H. destruct (nInt g); destruct (feqb (nMul g) fzero); try discriminate H.
  - elim (generateMultipleOf_timeout _ _ _ _ H).
  - apply bind_timeout in H. destruct H as [H|(a & _ & H)]; [|discriminate H].
    elim (generateMultipleOf_timeout _ _ _ _ H).
Qed.

Lemma inv_genNumber : forall g, PA \/ (forall d, exists v, numberGenerate g d = Ok v) -> inv (genNumber E g).
Proof.
  intros. unfold genNumber. apply inv_bind; [apply inv_tick|]. intros _.
  assert (X : forall d, inv (lift (numberGenerate g d))).
  { intros. apply inv_lift.
    - intros w Hw. destruct H; auto. destruct (H d) as [v Hv]. congruence.
    - intro. elim (numberGenerate_timeout g d); auto. }
  destruct (numberDraws g); [apply inv_bind; [apply inv_draw|]|]; auto.
Qed.

(* ---- the children *)
Variable G : gen -> M json.

Lemma inv_genAll : forall gs, (forall g, In g gs -> inv (G g)) -> inv (genAll G gs).
Proof.
  induction gs; simpl; intros; [apply inv_ret|].
  apply inv_bind; [apply H; auto|]. intros v. apply inv_bind; [apply IHgs; auto|]. intros; apply inv_ret.
Qed.

Lemma inv_uniqueTry : forall n g seen, inv (G g) -> inv (uniqueTry E G n g seen).
Proof.
  induction n; simpl; intros.
  - apply inv_bind; [apply inv_emit; reflexivity | intros; apply inv_ret].
  - apply inv_bind; auto. intros v. destruct (existsb _ seen); [auto | apply inv_ret].
Qed.

Lemma inv_genItem : forall u g data, inv (G g) -> inv (genItem E G u g data).
Proof.
  intros. unfold genItem. destruct u; [apply inv_uniqueTry; auto|].
  apply inv_bind; auto. intros; apply inv_ret.
Qed.

Lemma inv_containsLoop : forall n i k u g data, inv (G g) -> inv (containsLoop E G n i k u g data).
Proof.
  induction n; simpl; intros; [apply inv_ret|].
  apply inv_bind; [apply inv_genItem; auto|]. intros [v ok].
  destruct (negb ok && (k <? i)); [apply inv_ret | auto].
Qed.

Lemma inv_itemsLoop : forall fuel i n mn u g data, inv (G g) ->
  TO \/ (Z.max (n - i) (mn - Z.of_nat (List.length data)) < Z.of_nat fuel /\ (0 < fuel)%nat) ->
  inv (itemsLoop E G fuel i n mn u g data).
Proof.
  induction fuel; intros i n mn u g data HG H; simpl.
  - apply inv_lift_timeout. destruct H as [H|[_ H]]; auto. lia.
  - destruct ((i <? n) || (Z.of_nat (List.length data) <? mn)) eqn:C; [|apply inv_ret].
    apply inv_bind; [apply inv_genItem; auto|]. intros [v ok].
    destruct (negb ok && (mn <? i)); [apply inv_ret|]. apply IHfuel; auto.
    destruct H as [H|[H _]]; auto. right. rewrite app_length. simpl List.length.
    apply orb_prop in C. destruct C as [C|C]; apply Z.ltb_lt in C; lia.
Qed.

Lemma remaining_range : forall a, 0 <= maxInt2 0 a.
Proof. intros. unfold maxInt2. destruct (Z.ltb_spec 0 a); lia. Qed.

Definition arrOk (t : list gen) (c : arrCfg) : Prop :=
  let mn := getInt (aMinItems c) (oDefaultArrayMinItems (eOpts E)) in
  let mx0 := getInt (aMaxItems c) (oDefaultArrayMaxItems (eOpts E)) in
  let mx := if mx0 <? mn then mn + oDefaultArrayMaxItems (eOpts E) else mx0 in
  mx - (Z.of_nat (List.length t) + aMinContains c) < 2 ^ 63.

Lemma inv_genArray : forall t i a c u cf, PA \/ arrOk t cf ->
  (forall g, child g (GArray t i a c u cf) -> inv (G g)) -> inv (genArray E G t i a c u cf).
Proof.
  intros t i a c u cf HOK HG. unfold genArray. apply inv_guarded.
  apply inv_bind; [apply inv_genAll; intros; apply HG; apply ch_tuple; auto|]. intros data.
  destruct (aDisallowAdditional cf); [apply inv_ret|].
  apply inv_bind.
  { destruct c; [|apply inv_ret]. apply inv_containsLoop. apply HG. apply ch_cont. }
  intros data2. apply inv_bind.
  { apply inv_drawInt. destruct HOK as [H|H]; [auto|right]. split; [apply remaining_range|].
    unfold arrOk in H. unfold maxInt2. match goal with |- (if ?b then _ else _) - 0 < _ => destruct b end; lia. }
  intros n. apply inv_bind; [apply inv_minimize|]. intros mini.
  apply inv_bind; [|intros; apply inv_ret].
  apply inv_itemsLoop; [apply HG; apply fillGen_child|].
  right. split; [|lia]. lia.
Qed.

(* ---- objects *)
Lemma inv_genKey : forall pre props k, (forall g, In (k, g) props -> inv (G g)) -> inv (genKey E G pre props k).
Proof.
  intros. unfold genKey. destruct (assoc k props) eqn:A.
  - apply H. apply assoc_In; auto.
  - apply inv_bind; [apply inv_drawInt; right; lia | intros; apply inv_ret].
Qed.

Lemma inv_genKeys : forall pre props ks m, (forall k g, In (k, g) props -> inv (G g)) -> inv (genKeys E G pre props ks m).
Proof.
  induction ks; simpl; intros; [apply inv_ret|].
  apply inv_bind; [apply inv_genKey; eauto|]. intros; auto.
Qed.

Lemma inv_genPattern : forall pp, regenOk -> (forall k b g, In (k, (b, g)) pp -> inv (G g)) -> inv (genPattern E G pp).
Proof.
  intros. unfold genPattern. destruct pp as [|p r] eqn:Epp; [apply inv_ret|]. rewrite <- Epp in *.
  apply inv_bind; [apply inv_draw|]. intros d.
  apply inv_bind_post; [apply inv_choice; right; congruence|].
  intros [re [ok g]] (s1 & s2 & Hc). apply lift_ok in Hc. destruct Hc as [Hc _]. apply choice_In in Hc.
  destruct ok; [|apply inv_ret].
  apply inv_bind; [apply inv_globDraw|]. intros e.
  apply inv_bind; [apply inv_regen; auto|]. intros k.
  apply inv_bind; [eauto|]. intros; apply inv_ret.
Qed.

Lemma inv_patternLoop : forall n pp m, regenOk -> (forall k b g, In (k, (b, g)) pp -> inv (G g)) ->
  inv (patternLoop E G n pp m).
Proof.
  induction n; simpl; intros; [apply inv_ret|].
  apply inv_bind; [apply inv_genPattern; auto|]. intros [k v]. auto.
Qed.

Lemma inv_additionalLoop : forall n i g m, inv (G g) -> inv (additionalLoop G n i g m).
Proof.
  induction n; simpl; intros; [apply inv_ret|]. apply inv_bind; auto.
Qed.

Lemma inv_fallbackLoop : forall n i mn m, inv (G GNull) -> inv (fallbackLoop E G n i mn m).
Proof.
  induction n; simpl; intros; [apply inv_ret|].
  match goal with |- inv (if ?b then _ else _) => destruct b end; auto. apply inv_bind; auto.
Qed.

Lemma inv_fillerLoop : forall n i g m, inv (G g) -> inv (fillerLoop G n i g m).
Proof.
  induction n; simpl; intros; [apply inv_ret|]. apply inv_bind; auto.
Qed.

Lemma inv_fillMinimum : forall mn a m, inv (G (get_or a GNull)) -> inv (fillMinimum G mn a m).
Proof.
  intros. unfold fillMinimum. destruct (_ <? mn); [|apply inv_ret].
  apply inv_bind; [apply inv_fillerLoop; auto | intros; apply inv_ret].
Qed.

Lemma inv_stringChoiceMultiple : forall l n, PA \/ 0 <= n <= Z.of_nat (List.length l) ->
  inv (stringChoiceMultiple E l n).
Proof.
  intros. unfold stringChoiceMultiple. apply inv_bind; [apply inv_globDraws|]. intros ds.
  destruct ((n <? 0) || (Z.of_nat (List.length l) <? n)) eqn:C; [|apply inv_ret].
  apply inv_lift_panic. destruct H; auto. exfalso.
  apply orb_prop in C. destruct C as [C|C]; apply Z.ltb_lt in C; lia.
Qed.

(* the numbers of extra properties an object may ask for *)
Definition objMin (c : objCfg) : Z := getInt (bMinProperties c) (oDefaultObjectMinProperties (eOpts E)).
Definition objMax (c : objCfg) : Z :=
  let mx0 := getInt (bMaxProperties c) (oDefaultObjectMaxProperties (eOpts E)) in
  if mx0 <? objMin c then objMin c + mx0 else mx0.
Definition objOk (c : objCfg) : Prop := objMin c <= objMax c /\ objMax c < 2 ^ 63.

Lemma drawInt_ok_range : forall mn mx s v s', mn <= mx -> mx < 2 ^ 63 -> - 2 ^ 63 <= mn -> mx - mn < 2 ^ 63 ->
  drawInt E mn mx s = Ok (v, s') -> mn <= v <= mx.
Proof.
  intros mn mx s v s' H1 H2 H2' H3 H. unfold drawInt in H. destruct (Z.eqb_spec mn mx).
  - apply ret_ok in H. destruct H. lia.
  - stepM H. apply lift_ok in H. destruct H as [H _].
    unfold randomInt in H. destruct (Z.eqb_spec mn mx); [congruence|].
    rewrite wrap64_id in H by lia.
    apply bind_ok in H. destruct H as (r & Hr & H). unfold intn in Hr.
    destruct (Z.leb_spec (mx - mn) 0); [lia|]. injection Hr as <-.
    pose proof (Z.mod_pos_bound a (mx - mn) ltac:(lia)).
    injection H as <-. rewrite wrap64_id by lia. lia.
Qed.

Lemma minInt2_range : forall a b, 0 <= a -> 0 <= b -> 0 <= minInt2 a b <= a.
Proof. intros. unfold minInt2. destruct (Z.ltb_spec b a); lia. Qed.

Lemma inv_genObject : forall p pp a c, PA \/ objOk c -> regenOk ->
  (forall g, child g (GObject p pp a c) -> inv (G g)) -> inv (genObject E G p pp a c).
Proof.
  intros p pp a c HOK HR HG. unfold genObject. apply inv_guarded.
  assert (Hp : forall k g, In (k, g) p -> inv (G g)) by (intros; apply HG; econstructor; eauto).
  assert (Hpp : forall k b g, In (k, (b, g)) pp -> inv (G g)) by (intros; apply HG; eapply ch_pat; eauto).
  assert (Hm : inv (G (get_or a GNull))) by (destruct a; simpl; apply HG; [apply ch_add | apply ch_fallback]).
  apply inv_bind; [apply inv_genKeys; auto|]. intros m.
  fold (objMin c). fold (objMax c).
  set (nreq := Z.of_nat (List.length (bRequired c))).
  set (mnE := maxInt2 0 (objMin c - nreq)). set (mxE := maxInt2 0 (objMax c - nreq)).
  assert (HE : objOk c -> 0 <= mnE <= mxE /\ mxE < 2 ^ 63).
  { intros [H1 H2]. unfold mnE, mxE, maxInt2, nreq in *.
    destruct (Z.ltb_spec 0 (objMin c - Z.of_nat (List.length (bRequired c))));
    destruct (Z.ltb_spec 0 (objMax c - Z.of_nat (List.length (bRequired c)))); lia. }
  apply inv_bind_post.
  { apply inv_drawInt. destruct HOK as [H|H]; [auto|right]. specialize (HE H). lia. }
  intros target (s1 & s2 & Ht).
  apply inv_bind; [apply inv_minimize|]. intros mini.
  apply inv_bind.
  { apply inv_stringChoiceMultiple. destruct HOK as [H|H]; [auto|right]. specialize (HE H).
    apply drawInt_ok_range in Ht; [|lia..].
    apply minInt2_range; [lia|]. destruct mini; lia. }
  intros picked. apply inv_bind; [apply inv_genKeys; auto|]. intros m2.
  destruct pp as [|q r] eqn:Epp.
  - destruct (bDisallowAdditional c); [apply inv_ret|].
    destruct a.
    + apply inv_bind; [apply inv_additionalLoop; exact Hm|]. intros. apply inv_fillMinimum; auto.
    + apply inv_bind; [apply inv_fallbackLoop; exact Hm|]. intros. apply inv_fillMinimum; auto.
  - rewrite <- Epp in *. apply inv_bind; [apply inv_patternLoop; auto|].
    intros. apply inv_fillMinimum; auto.
Qed.

(* ---- choices *)
Lemma inv_genOneOf : forall gs, PA \/ (gs <> [] /\ Z.of_nat (List.length gs) < 2 ^ 63) ->
  (forall g, In g gs -> inv (G g)) -> inv (genOneOf E G gs).
Proof.
  intros gs H HG. unfold genOneOf. apply inv_bind_post.
  { apply inv_drawInt. destruct H as [H|[H1 H2]]; [auto|right]. lia. }
  intros i (s1 & s2 & Hi). destruct (nth_error gs (Z.to_nat i)) eqn:N.
  - apply HG. eapply nth_error_In; eauto.
  - apply inv_lift_panic. destruct H as [H|[H1 H2]]; auto. exfalso.
    assert (Hl : (0 < List.length gs)%nat) by (destruct gs; simpl; [congruence | lia]).
    apply nth_error_None in N.
    unfold drawInt in Hi. destruct (Z.eqb_spec 0 (Z.of_nat (List.length gs))); [lia|].
    stepM Hi. apply lift_ok in Hi. destruct Hi as [Hi _].
    unfold randomInt in Hi. destruct (Z.eqb_spec 0 (Z.of_nat (List.length gs))); [lia|].
    rewrite wrap64_id in Hi by lia.
    apply bind_ok in Hi. destruct Hi as (q & Hq & Hi). unfold intn in Hq.
    destruct (Z.leb_spec (Z.of_nat (List.length gs) - 0) 0); [lia|]. injection Hq as <-.
    pose proof (Z.mod_pos_bound a (Z.of_nat (List.length gs) - 0) ltac:(lia)).
    injection Hi as <-. rewrite wrap64_id in N by lia. lia.
Qed.

(* ---- constraints *)
Lemma inv_multiTry : forall n c g v, inv (G g) -> inv (multiTry E G n c g v).
Proof.
  induction n; simpl; intros.
  - apply inv_bind; [apply inv_emit; reflexivity | intros; apply inv_ret].
  - destruct (multiPassed E c v); [apply inv_ret|]. apply inv_bind; auto.
Qed.

Lemma inv_oneOfTry : forall n l g v, inv (G g) -> inv (oneOfTry E G n l g v).
Proof.
  induction n; simpl; intros.
  - apply inv_bind; [apply inv_emit; reflexivity | intros; apply inv_ret].
  - apply inv_bind; [apply inv_tick|]. intros _.
    destruct (oneOfPassed E l v); [apply inv_ret|]. apply inv_bind; auto.
Qed.

Lemma inv_ifAttempt : forall c t e v,
  (forall g, t = Some g -> inv (G g)) -> (forall g, e = Some g -> inv (G g)) ->
  inv (ifAttempt E G (c, (t, e)) v).
Proof.
  intros. unfold ifAttempt. destruct (eValid E c v).
  - destruct t; [|apply inv_ret]. apply inv_bind; auto. intros; apply inv_ret.
  - destruct e; [|apply inv_ret]. apply inv_bind; auto. intros; apply inv_ret.
Qed.

Lemma inv_ifPass : forall idx l v,
  (forall c t e g, In (c, (t, e)) l -> (t = Some g \/ e = Some g) -> inv (G g)) ->
  (PA \/ forall i, In i idx -> (i < List.length l)%nat) ->
  inv (ifPass E G idx l v).
Proof.
  induction idx; simpl; intros l v HG Hi; [apply inv_ret|].
  destruct (nth_error l a) as [[c [t e]]|] eqn:N.
  - apply nth_error_In in N. apply inv_bind.
    + apply inv_ifAttempt; intros; eapply HG; eauto.
    + intros [w|]; [|apply inv_ret]. apply IHidx; auto. destruct Hi; auto.
  - apply inv_lift_panic. destruct Hi as [Hi|Hi]; auto. apply nth_error_None in N.
    specialize (Hi a (or_introl eq_refl)). lia.
Qed.

Lemma upd_nth_In : forall A (l : list A) i x y, In y (upd_nth l i x) -> y = x \/ In y l.
Proof.
  unfold upd_nth; intros. apply in_app_or in H. destruct H as [H|[H|H]]; auto.
  - right. rewrite <- (firstn_skipn i l). apply in_or_app; auto.
  - right. rewrite <- (firstn_skipn (S i) l). apply in_or_app; auto.
Qed.

Lemma perm_loop_bound : forall n i ds m N, (i + n <= N)%nat -> (forall x, In x m -> (x < N)%nat) ->
  forall x, In x (perm_loop i n ds m) -> (x < N)%nat.
Proof.
  induction n; simpl; intros; auto.
  apply (IHn (S i) ds _ N ltac:(lia)) in H1; auto. clear H1 x.
  intros x Hx. apply upd_nth_In in Hx. destruct Hx as [Hx|Hx]; [lia|].
  apply in_app_or in Hx. destruct Hx as [Hx|Hx]; auto.
  destruct Hx as [Hx|[]]. subst.
  destruct (nth_in_or_default (Z.to_nat (ds i mod Z.pos (Pos.of_succ_nat i))) (m ++ [i])%list i) as [Hy|Hy].
  - apply in_app_or in Hy. destruct Hy as [Hy|[Hy|[]]]; auto. lia.
  - rewrite Hy. lia.
Qed.

Lemma perm_bound : forall n ds x, In x (perm n ds) -> (x < n)%nat.
Proof. unfold perm; intros. eapply perm_loop_bound in H; eauto. simpl; tauto. Qed.

Lemma inv_ifTry : forall n l g v, inv (G g) ->
  (forall c t e g, In (c, (t, e)) l -> (t = Some g \/ e = Some g) -> inv (G g)) ->
  inv (ifTry E G n l g v).
Proof.
  induction n; intros l g v Hg HG; cbn [ifTry].
  - apply inv_bind; [apply inv_emit; reflexivity | intros; apply inv_ret].
  - apply inv_bind; [apply inv_tick|]. intros _.
    apply inv_bind; [apply inv_draws|]. intros ds.
    apply inv_bind.
    + apply inv_ifPass; auto. right. intros. eapply perm_bound; eauto.
    + intros [w|]; [apply inv_ret|]. apply inv_bind; auto.
Qed.

Lemma inv_applyConstr : forall g c v, inv (G g) ->
  (forall l k t e g, c = CIf l -> In (k, (t, e)) l -> (t = Some g \/ e = Some g) -> inv (G g)) ->
  inv (applyConstr E G g c v).
Proof.
  intros g [cc|l|l] v Hg HG; simpl; (apply inv_bind; [apply inv_budget|]); intros b.
  - apply inv_multiTry; auto.
  - apply inv_oneOfTry; auto.
  - apply inv_ifTry; eauto.
Qed.

Lemma inv_applyAll : forall g cs v, inv (G g) ->
  (forall l k t e g, In (CIf l) cs -> In (k, (t, e)) l -> (t = Some g \/ e = Some g) -> inv (G g)) ->
  inv (applyAll E G g cs v).
Proof.
  induction cs; simpl; intros v Hg HG; [apply inv_ret|].
  apply inv_bind; [apply inv_tick|]. intros _. apply inv_bind.
  - apply inv_applyConstr; auto. intros. subst. eapply HG; eauto.
  - intros w. apply IHcs; auto. intros; eapply HG; eauto.
Qed.

Lemma inv_genConstrained : forall g cs, (forall g', child g' (GConstrained g cs) -> inv (G g')) ->
  inv (genConstrained E G g cs).
Proof.
  intros g cs HG. unfold genConstrained.
  apply inv_bind; [apply HG; apply ch_constr|]. intros v.
  apply inv_bind; [apply inv_cutoff|]. intros [|].
  - apply inv_bind; [apply inv_emit; reflexivity | intros; apply inv_ret].
  - apply inv_applyAll; [apply HG; apply ch_constr|].
    intros l k t e g' H1 H2 [H3|H3]; subst; apply HG; [eapply ch_then | eapply ch_else]; eauto.
Qed.

(* ---- references: entering one is the only place where the stack changes *)
Definition canEnter (s : gst) (key : string) : Prop :=
  Z.of_nat (List.length (gStack s)) <= oMaximumReferenceDepth (eOpts E) /\
  (oBypassCyclicReferenceCheck (eOpts E) = true \/ ~ In key (gStack s)).

Lemma inv_genRef : forall doc path,
  (forall g s, lookup E doc path = Some g -> P s -> canEnter s (refKey doc path) ->
     match G g (mkG (gPos s) (gGlob s) (gCx s) (refKey doc path :: gStack s)
                    (EvEnter (refKey doc path) (gStack s) :: gLog s)) with
     | Ok (_, s') => P (mkG (gPos s') (gGlob s') (gCx s') (tl (gStack s')) (gLog s'))
     | Panic _ => PA
     | Timeout => TO
     end) ->
  inv (genRef E G doc path).
Proof.
  intros doc path HG. unfold genRef. apply inv_guarded.
  destruct (lookup E doc path) as [g|] eqn:L.
  2:{ apply inv_bind; [apply inv_emit; reflexivity | intros; apply inv_ret]. }
  unfold inv. intros s Ps. cbn [bindM getStack].
  destruct (Z.ltb_spec (oMaximumReferenceDepth (eOpts E)) (Z.of_nat (List.length (gStack s)))).
  { apply (st_emit _ HP); auto. }
  destruct (mem_string (refKey doc path) (gStack s) && negb (oBypassCyclicReferenceCheck (eOpts E))) eqn:C.
  { apply (st_emit _ HP); auto. }
  unfold bindM, emit, pushRef, popRef, ret. cbn [gPos gGlob gCx gStack gLog].
  specialize (HG g s eq_refl Ps). destruct (G g _) as [[v s']| |] eqn:R; apply HG; split; auto.
  all: apply andb_false_iff in C; destruct C as [C|C]; [right; intro X; apply mem_string_In in X; congruence | left; now apply negb_false_iff].
Qed.

(* local conditions under which a generator does not panic by itself *)
Definition wf1 (g : gen) : Prop :=
  match g with
  | GEnum vs => vs <> []
  | GNumber n => forall d, exists v, numberGenerate n d = Ok v
  | GArray t _ _ _ _ c => arrOk t c
  | GObject _ _ _ c => objOk c
  | GMulti gs | GComb gs => gs <> [] /\ Z.of_nat (List.length gs) < 2 ^ 63
  | _ => True
  end.

Theorem inv_genStep : forall g,
  PA \/ wf1 g -> regenOk -> TO \/ (forall d, eSentence E d <> "") ->
  (forall g', child g' g -> inv (G g')) ->
  (forall doc path g' s, g = GRef doc path -> lookup E doc path = Some g' -> P s -> canEnter s (refKey doc path) ->
     match G g' (mkG (gPos s) (gGlob s) (gCx s) (refKey doc path :: gStack s)
                     (EvEnter (refKey doc path) (gStack s) :: gLog s)) with
     | Ok (_, s') => P (mkG (gPos s') (gGlob s') (gCx s') (tl (gStack s')) (gLog s'))
     | Panic _ => PA
     | Timeout => TO
     end) ->
  inv (genStep E G g).
Proof.
  intros g Hwf HR HS HG Href. destruct g; simpl in Hwf |- *.
  - apply inv_bind; [apply inv_tick | intros; apply inv_ret].
  - apply inv_bind; [apply inv_draw | intros; apply inv_ret].
  - apply inv_ret.
  - apply inv_bind; [apply inv_tick|]. intros _. apply inv_bind; [apply inv_draw|]. intros; apply inv_choice; auto.
  - apply inv_genNumber; auto.
  - apply inv_genString; auto.
  - apply inv_genArray; auto.
  - apply inv_genObject; auto.
  - apply inv_genOneOf; auto. intros; apply HG; constructor; auto.
  - apply inv_guarded, inv_genOneOf; auto. intros; apply HG; constructor; auto.
  - apply HG; constructor.
  - apply inv_genRef. intros; eapply Href; eauto.
  - apply inv_genConstrained; auto.
Qed.
End Inv.
