(* Facts about character classes and about the strings generated for an expression. *)
From Coq Require Import ZArith List String Bool Lia.
From Verif Require Import Base Number Regen SpecRegex.
Import ListNotations.
Open Scope string_scope.
Open Scope Z_scope.

(* ------------------------------------------------------------------ classes *)

Lemma sizeUpTo_cons : forall m lo hi r, sizeUpTo m ((lo, hi) :: r) = Z.max 0 (Z.min hi m - Z.max 1 lo + 1) + sizeUpTo m r.
Proof. reflexivity. Qed.
Lemma normal_cons : forall a lo hi r, normal a ((lo, hi) :: r) = (a <= lo /\ lo <= hi /\ hi <= 1114111 /\ normal (hi + 1) r).
Proof. reflexivity. Qed.

Definition sized (p : Z * Z) : Z * Z := (Z.max 1 (fst p), snd p - Z.max 1 (fst p) + 1).

Lemma wrap32_id : forall z, - 2 ^ 31 <= z < 2 ^ 31 -> wrap32 z = z.
Proof. intros. unfold wrap32. rewrite Z.mod_small; lia. Qed.

Lemma normal_weaken : forall l a b, a <= b -> normal b l -> normal a l.
Proof. intros [|[lo hi] r] a b H; [auto|]. rewrite !normal_cons. intuition lia. Qed.

Lemma parseClass_sized : forall l from, 0 <= from -> normal from l -> ~ In (0, 0) l -> parseClass l = Ok (map sized l).
Proof.
  induction l as [|[lo hi] r IH]; intros from Hf N Z0; [reflexivity|].
  rewrite normal_cons in N. destruct N as (N1 & N2 & N3 & N4).
  assert (H1 : 1 <= hi). { destruct (Z.eq_dec hi 0); [|lia]. exfalso. apply Z0. left. f_equal; lia. }
  cbn [parseClass map]. unfold newRange.
  assert (E : (if lo =? 0 then 1 else lo) = Z.max 1 lo) by (destruct (Z.eqb_spec lo 0); lia).
  rewrite E. replace (Z.max 1 lo <? 1) with false by (symmetry; apply Z.ltb_ge; lia).
  rewrite wrap32_id by lia. replace (hi - Z.max 1 lo + 1 <? 1) with false by (symmetry; apply Z.ltb_ge; lia).
  cbn [bind]. rewrite (IH (hi + 1)); [reflexivity|lia|assumption|]. intro X. apply Z0. right. exact X.
Qed.

Lemma parseClass_null : forall l from, 0 <= from -> normal from l -> In (0, 0) l -> exists w, parseClass l = Panic w.
Proof.
  intros [|[lo hi] r] from Hf N I0; [destruct I0|]. destruct I0 as [E|I].
  - injection E as -> ->. eexists. reflexivity.
  - exfalso. rewrite normal_cons in N. destruct N as (N1 & N2 & N3 & N4).
    assert (G : forall l a, 1 <= a -> normal a l -> ~ In (0, 0) l).
    { induction l as [|[x y] l IH]; intros a Ha Hn X; [destruct X|]. destruct X as [X|X].
      - injection X as -> ->. rewrite normal_cons in Hn. lia.
      - rewrite normal_cons in Hn. apply (IH (y + 1)) in X; [assumption|lia|tauto]. }
    apply (G r (hi + 1)) in I; [assumption|lia|assumption].
Qed.

Lemma parseClass_ok : forall l from rs, 0 <= from -> normal from l -> parseClass l = Ok rs -> rs = map sized l /\ ~ In (0, 0) l.
Proof.
  intros l from rs Hf N E.
  destruct (in_dec (fun a b : Z * Z => ltac:(decide equality; apply Z.eq_dec) : {a = b} + {a <> b}) (0, 0) l) as [I|I].
  - destruct (parseClass_null _ _ Hf N I) as [w Hw]. congruence.
  - rewrite (parseClass_sized _ _ Hf N I) in E. split; [congruence|assumption].
Qed.

Lemma sizeUpTo_nonneg : forall m l, 0 <= sizeUpTo m l.
Proof. induction l as [|[lo hi] r IH]; [reflexivity|]. rewrite sizeUpTo_cons. lia. Qed.
Lemma sizeUpTo_mono : forall m m' l, m <= m' -> sizeUpTo m l <= sizeUpTo m' l.
Proof. intros m m' l H. induction l as [|[lo hi] r IH]; [reflexivity|]. rewrite !sizeUpTo_cons. lia. Qed.
Lemma sizeUpTo_below : forall m l a, normal a l -> m < a -> sizeUpTo m l = 0.
Proof.
  induction l as [|[lo hi] r IH]; intros a N H; [reflexivity|]. rewrite normal_cons in N. rewrite sizeUpTo_cons.
  rewrite (IH (hi + 1)) by (tauto || lia). lia.
Qed.

Lemma sizeUpTo_le : forall m l a, 0 <= a -> normal a l -> sizeUpTo m l <= Z.max 0 (1114111 - Z.max 1 a + 1).
Proof.
  induction l as [|[lo hi] r IH]; intros a Ha N; [change (sizeUpTo m []) with 0; lia|]. rewrite sizeUpTo_cons. rewrite normal_cons in N.
  specialize (IH (hi + 1) ltac:(lia) ltac:(tauto)). lia.
Qed.

Lemma total_acc : forall l a acc, 0 <= a -> normal a l -> ~ In (0, 0) l -> 0 <= acc -> acc + sizeUpTo 1114111 l < 2 ^ 31 ->
  fold_left (fun a r => wrap32 (a + snd r)) (map sized l) acc = acc + sizeUpTo 1114111 l.
Proof.
  induction l as [|[lo hi] r IH]; intros a acc Ha N Z0 H0 H1; cbn [map fold_left].
  - change (sizeUpTo 1114111 []) with 0. lia.
  - rewrite normal_cons in N. rewrite sizeUpTo_cons in *. unfold sized at 2. cbn [fst snd].
    assert (Hh : 1 <= hi). { destruct (Z.eq_dec hi 0); [|lia]. exfalso. apply Z0. left. f_equal; lia. }
    pose proof (sizeUpTo_nonneg 1114111 r).
    rewrite wrap32_id by lia.
    rewrite (IH (hi + 1)); try lia; try tauto. intro X. apply Z0. right. exact X.
Qed.

Lemma total_sized : forall l, normal 0 l -> ~ In (0, 0) l -> totalSize (map sized l) = sizeUpTo 1114111 l.
Proof.
  intros l N Z0. unfold totalSize. pose proof (sizeUpTo_le 1114111 l 0 ltac:(lia) N). rewrite (total_acc l 0); try lia; assumption.
Qed.

Lemma normal_in : forall l a lo hi, normal a l -> In (lo, hi) l -> a <= lo.
Proof.
  induction l as [|[x y] r IH]; intros a lo hi N I0; [destruct I0|]. destruct I0 as [E|I].
  - injection E as -> ->. rewrite normal_cons in N. lia.
  - rewrite normal_cons in N. specialize (IH (y + 1) lo hi ltac:(tauto) I). lia.
Qed.

Lemma runeAt_iff : forall l a, 0 <= a -> normal a l -> ~ In (0, 0) l -> forall i c, 0 <= i ->
  (runeAt (map sized l) i = Ok c <-> inClass l c /\ 1 <= c /\ i = sizeUpTo (c - 1) l).
Proof.
  induction l as [|[lo hi] r IH]; intros a Ha N Z0 i c Hi.
  - split; [discriminate|]. intros ((x & y & [] & _) & _).
  - rewrite normal_cons in N. destruct N as (N1 & N2 & N3 & N4).
    assert (Hh : 1 <= hi). { destruct (Z.eq_dec hi 0); [|lia]. exfalso. apply Z0. left. f_equal; lia. }
    assert (Zr : ~ In (0, 0) r) by (intro X; apply Z0; right; exact X).
    cbn [map runeAt]. unfold sized at 1. cbn [fst snd]. rewrite sizeUpTo_cons.
    destruct (Z.ltb_spec i (hi - Z.max 1 lo + 1)).
    + split.
      * intros E. injection E as <-. split; [exists lo, hi; split; [left; reflexivity|lia]|]. split; [lia|].
        rewrite (sizeUpTo_below _ r (hi + 1)); [lia|assumption|lia].
      * intros ((x & y & I & B) & C1 & C2). f_equal. destruct I as [I|I].
        -- injection I as -> ->. rewrite (sizeUpTo_below _ r (y + 1)) in C2; [lia|assumption|lia].
        -- pose proof (normal_in _ _ _ _ N4 I). pose proof (sizeUpTo_nonneg (c - 1) r). lia.
    + rewrite (IH (hi + 1)); try lia; try assumption. split.
      * intros ((x & y & I & B) & C1 & C2). split; [exists x, y; split; [right; exact I|exact B]|]. split; [exact C1|].
        pose proof (normal_in _ _ _ _ N4 I). lia.
      * intros ((x & y & I & B) & C1 & C2). destruct I as [I|I].
        -- injection I as -> ->. rewrite (sizeUpTo_below _ r (y + 1)) in C2; [lia|assumption|lia].
        -- split; [exists x, y; split; assumption|]. split; [exact C1|].
           pose proof (normal_in _ _ _ _ N4 I). lia.
Qed.

Lemma runeAt_total : forall l a, 0 <= a -> normal a l -> ~ In (0, 0) l -> forall i, 0 <= i < sizeUpTo 1114111 l ->
  exists c, runeAt (map sized l) i = Ok c.
Proof.
  induction l as [|[lo hi] r IH]; intros a Ha N Z0 i Hi; [change (sizeUpTo 1114111 []) with 0 in Hi; lia|].
  rewrite normal_cons in N. destruct N as (N1 & N2 & N3 & N4).
  cbn [map runeAt]. unfold sized at 1. cbn [fst snd]. rewrite sizeUpTo_cons in Hi.
  destruct (Z.ltb_spec i (hi - Z.max 1 lo + 1)); [eexists; reflexivity|].
  assert (Hh : 1 <= hi). { destruct (Z.eq_dec hi 0); [|lia]. exfalso. apply Z0. left. f_equal; lia. }
  apply (IH (hi + 1)); try lia; try assumption. intro X. apply Z0. right. exact X.
Qed.

(* C45 *)
Lemma class_exact : forall l rs, normal 0 l -> parseClass l = Ok rs ->
  (forall i, 0 <= i < totalSize rs -> exists c, runeAt rs i = Ok c /\ inClass l c /\ c <> 0) /\
  (forall c, inClass l c -> c <> 0 -> exists! i, 0 <= i < totalSize rs /\ runeAt rs i = Ok c).
Proof.
  intros l rs N E. destruct (parseClass_ok l 0 rs ltac:(lia) N E) as [-> Z0]. rewrite (total_sized _ N Z0). split.
  - intros i Hi. destruct (runeAt_total l 0 ltac:(lia) N Z0 i Hi) as [c Hc]. exists c.
    pose proof (proj1 (runeAt_iff l 0 ltac:(lia) N Z0 i c ltac:(lia)) Hc) as (H1 & H2 & H3).
    repeat split; try assumption; lia.
  - intros c I C.
    assert (1 <= c) by (destruct I as (lo & hi & I & B); pose proof (normal_in _ _ _ _ N I); lia).
    exists (sizeUpTo (c - 1) l). split.
    + pose proof (sizeUpTo_nonneg (c - 1) l). split; [split; [assumption|]|apply (runeAt_iff l 0); auto; lia].
      clear - I N H. destruct I as (lo & hi & I & B). revert I N. generalize 0.
      induction l as [|[x y] r IH]; intros a I N; [destruct I|]. rewrite normal_cons in N. rewrite !sizeUpTo_cons.
      destruct I as [I|I].
      * injection I as -> ->. pose proof (sizeUpTo_mono (c - 1) 1114111 r ltac:(lia)). lia.
      * specialize (IH (y + 1) I ltac:(tauto)). assert (Z.min y (c - 1) <= Z.min y 1114111) by lia. lia.
    + intros i' [[B1 B2] R]. pose proof (proj1 (runeAt_iff l 0 ltac:(lia) N Z0 i' c B1) R) as (_ & _ & ->). reflexivity.
Qed.

(* ------------------------------------------------------------------ generation *)

Lemma newGens_ok : forall f l gs, newGens f l = Ok (Good gs) -> Forall2 (fun r g => f r = Ok (Good g)) l gs.
Proof.
  induction l as [|r l IH]; intros gs E; cbn in E.
  - injection E as <-. constructor.
  - apply bind_ok in E. destruct E as ([g|m] & E1 & E2); [|discriminate].
    apply bind_ok in E2. destruct E2 as ([gs'|m] & E2 & E3); [|discriminate].
    injection E3 as <-. constructor; auto.
Qed.

Lemma widthless_empty : forall x pre u post, widthless x = true -> matches x pre u post -> u = [].
Proof. intros x pre u post H M. destruct x; try discriminate; inversion M; reflexivity. Qed.

Lemma inRow_widthless : forall l pre v post, forallb widthless l = true -> inRow l pre v post -> v = [].
Proof.
  induction l as [|x l IH]; intros pre v post H R; inversion R; subst; [reflexivity|].
  cbn in H. apply andb_true_iff in H. destruct H as [W1 W2].
  match goal with M : matches _ _ _ _, R' : inRow _ _ _ _ |- _ => rewrite (widthless_empty _ _ _ _ W1 M) end.
  match goal with R' : inRow l _ _ _ |- _ => rewrite (IH _ _ _ W2 R') end. reflexivity.
Qed.

Lemma scalar_written : forall c, scalar c = true -> written c = c.
Proof. intros c H. unfold written. rewrite H. reflexivity. Qed.

Lemma map_written : forall rs, Forall (fun c => scalar c = true) rs -> map written rs = rs.
Proof. intros rs H. induction H; cbn; [reflexivity|]. rewrite scalar_written, IHForall by assumption. reflexivity. Qed.

Section Gen.
Variable simp : regex -> regex.
Variable a : rargs.
Variable rd : nat -> Z -> Z.
Hypothesis Hs : simplifies simp.
Hypothesis Hrd : forall k n, 1 <= n -> 0 <= rd k n < n.

Lemma intn_ok : forall n k x, intn rd n k = Ok x -> 0 <= fst x < n.
Proof.
  intros n k x E. unfold intn in E. destruct (Z.ltb_spec n 1); [discriminate|]. injection E as <-. cbn. apply Hrd. lia.
Qed.

Definition fits (r : regex) (g : rgen) : Prop :=
  forall b e, anchorsAtEnds b e r = true -> cleanText r ->
  forall k w k', rgenerate a rd g k = Ok (w, k') ->
  forall pre post, (b = true -> pre = []) -> (e = true -> post = []) -> matches r pre w post.

Lemma rep_fits : forall r g, (forall k w k', rgenerate a rd g k = Ok (w, k') -> forall pre post, matches r pre w post) ->
  forall n k w k', repGenerate (rgenerate a rd g) n k = Ok (w, k') -> forall pre post, inRow (repeat r n) pre w post.
Proof.
  intros r g H. induction n as [|n IH]; intros k w k' E pre post; cbn in E.
  - injection E as <- _. constructor.
  - apply bind_ok in E. destruct E as ([u k1] & E1 & E). apply bind_ok in E. destruct E as ([v k2] & E2 & E).
    injection E as <- _. cbn [fst snd repeat] in *. constructor; eauto.
Qed.

Lemma cat_fits : forall l gs, Forall2 fits l gs -> forall e st, anchorsAtEnds st e (EConcat l) = true -> cleanText (EConcat l) ->
  forall k w k', catGen (rgenerate a rd) gs k = Ok (w, k') ->
  forall pre post, (st = true -> pre = []) -> (e = true -> post = []) -> inRow l pre w post.
Proof.
  intros l gs F. induction F as [|x g l gs Hx F IH]; intros e st A C k w k' E pre post B1 B2.
  - cbn in E. injection E as <- _. constructor.
  - cbn in A. apply andb_true_iff in A. destruct A as [A1 A2]. cbn in C. destruct C as [C1 C2].
    cbn in E. apply bind_ok in E. destruct E as ([u k1] & E1 & E). apply bind_ok in E. destruct E as ([v k2] & E2 & E).
    injection E as <- _. cbn [fst snd] in *.
    assert (Hu : widthless x = true -> u = []).
    { intro W. eapply widthless_empty; [exact W|]. apply (Hx _ _ A1 C1 _ _ _ E1 [] []); auto. }
    assert (R : inRow l (pre ++ u) v post).
    { eapply IH; try eassumption. intro X. apply andb_true_iff in X. destruct X as [X1 X2]. rewrite (B1 X1), (Hu X2). reflexivity. }
    constructor; [|exact R].
    apply (Hx _ _ A1 C1 _ _ _ E1); [assumption|]. intro X. apply andb_true_iff in X. destruct X as [X1 X2].
    rewrite (B2 X1), (inRow_widthless _ _ _ _ X2 R). reflexivity.
Qed.

Lemma pick_in : forall gs i k w, pickGen (rgenerate a rd) gs i k = Ok w -> exists g, In g gs /\ rgenerate a rd g k = Ok w.
Proof.
  induction gs as [|g gs IH]; intros i k w E; cbn in E; [discriminate|].
  destruct (i =? 0); [exists g; split; [left; reflexivity|assumption]|].
  destruct (IH _ _ _ E) as (g' & I & G). exists g'. split; [right|]; assumption.
Qed.

Lemma Forall2_in_r : forall A B (P : A -> B -> Prop) l gs g, Forall2 P l gs -> In g gs -> exists r, In r l /\ P r g.
Proof.
  intros A B P l gs g F. induction F; intros [].
  - subst. eexists. split; [left; reflexivity|assumption].
  - destruct (IHF H0) as (r & I & Q). exists r. split; [right|]; assumption.
Qed.

Lemma clean_rune : forall l rs i c, cleanClass l -> parseClass l = Ok rs -> 0 <= i < totalSize rs ->
  (100000 < totalSize rs -> i < 125) -> runeAt rs i = Ok c -> inClass l c /\ scalar c = true.
Proof.
  intros l rs i c [N C] E Hi Hb R.
  destruct (parseClass_ok l 0 rs ltac:(lia) N E) as [-> Z0]. rewrite (total_sized _ N Z0) in *.
  pose proof (proj1 (runeAt_iff l 0 ltac:(lia) N Z0 i c ltac:(lia)) R) as (H1 & H2 & H3). split; [assumption|].
  assert (B : c <= 1114111).
  { clear - H1 N. destruct H1 as (lo & hi & I & B). revert I N. generalize 0.
    induction l as [|[x y] r IH]; intros a0 I N; [destruct I|]. rewrite normal_cons in N. destruct I as [I|I].
    - injection I as -> ->. lia.
    - apply (IH (y + 1) I). tauto. }
  assert (S : c < 55296 \/ 57343 < c).
  { destruct C as [C|[C1 C2]]; [auto|]. left. specialize (Hb C1).
    destruct (Z.lt_ge_cases c 55296); [assumption|]. pose proof (sizeUpTo_mono 55295 (c - 1) l ltac:(lia)). lia. }
  unfold scalar. apply andb_true_iff. split; [apply andb_true_iff; split; apply Z.leb_le; lia|].
  apply negb_true_iff, andb_false_iff. destruct S; [left; apply Z.leb_gt; lia|right; apply Z.leb_gt; lia].
Qed.

Lemma scalar_range : forall c, 0 <= c < 55296 -> scalar c = true.
Proof.
  intros. unfold scalar. apply andb_true_iff. split; [apply andb_true_iff; split; apply Z.leb_le; lia|].
  apply negb_true_iff, andb_false_iff. left. apply Z.leb_gt. lia.
Qed.

Lemma class_draw : forall rs k w k', rgenerate a rd (RClass rs) k = Ok (w, k') ->
  exists i c, 0 <= i /\ i < totalSize rs /\ (100000 < totalSize rs -> i < 125) /\ runeAt rs i = Ok c /\ w = [written c].
Proof.
  intros rs k w k' E. cbn [rgenerate] in E. apply bind_ok in E. destruct E as ([x k1] & E1 & E). pose proof (intn_ok _ _ _ E1) as B. cbn [fst snd] in *.
  apply bind_ok in E. destruct E as ([y k2] & E2 & E). apply bind_ok in E. destruct E as (c & E3 & E). injection E as <- _.
  exists y, c. cbn [fst snd] in *. destruct (Z.ltb_spec 100000 (totalSize rs)).
  - apply bind_ok in E2. destruct E2 as ([z k3] & E4 & E2). pose proof (intn_ok _ _ _ E4) as B2. injection E2 as <- _. cbn [fst snd] in *.
    repeat split; try lia; assumption.
  - injection E2 as <- _. repeat split; try lia; assumption.
Qed.

Lemma newGen_fits : forall f r g, newGen simp a f r = Ok (Good g) -> fits r g.
Proof.
  induction f as [|f IH]; intros r g E; [discriminate|].
  intros b e A C k w k' G pre post B1 B2.
  apply (sLanguage simp Hs). apply (sAnchors simp Hs) in A. apply (sClean simp Hs) in C.
  cbn [newGen] in E. remember (simp r) as q eqn:Q. clear Q r.
  assert (REP : forall s lo hi, repGen a (newGen simp a f) s lo hi = Ok (Good g) ->
     exists s', g = RRep (if lo =? -1 then aMin a else lo) (if hi =? -1 then aMax a else hi) s' /\ fits s s').
  { intros s lo hi X. unfold repGen in X. apply bind_ok in X. destruct X as ([s'|m] & X1 & X2); [|discriminate].
    injection X2 as <-. eauto. }
  destruct q; try discriminate.
  - injection E as <-. cbn in G. injection G as <- _. constructor.
  - injection E as <-. cbn in G. injection G as <- _. cbn in C. rewrite map_written by assumption. constructor.
  - apply bind_ok in E. destruct E as (rs & E1 & E). injection E as <-. cbn in C.
    destruct (class_draw _ _ _ _ G) as (i & c & I1 & I2 & I3 & I4 & ->).
    destruct (clean_rune _ _ _ _ C E1 (conj I1 I2) I3 I4) as [M S]. rewrite scalar_written by assumption. constructor. assumption.
  - apply bind_ok in E. destruct E as (x & E1 & E). injection E as <-.
    destruct (aAscii a); cbn in E1; [|discriminate]. injection E1 as <-.
    destruct (class_draw _ _ _ _ G) as (i & c & I1 & I2 & _ & I4 & ->). cbn [runeAt] in I4.
    change (totalSize [(32, 62)]) with 62 in I2.
    destruct (Z.ltb_spec i 62); [|lia]. assert (X : c = 32 + i) by congruence. clear I4. rewrite scalar_written by (apply scalar_range; lia).
    constructor. unfold newline. lia.
  - injection E as <-. cbn [rgenerate] in G. destruct (aAscii a); apply bind_ok in G; destruct G as ([x k1] & G1 & G); injection G as <- _; constructor.
  - injection E as <-. cbn in G. injection G as <- _. cbn in A. constructor. auto.
  - injection E as <-. cbn in G. injection G as <- _. cbn in A. constructor. auto.
  - injection E as <-. cbn in G. injection G as <- _. cbn in A. rewrite (B1 A). constructor.
  - injection E as <-. cbn in G. injection G as <- _. cbn in A. rewrite (B2 A). constructor.
  - constructor. eapply IH; eassumption.
  - destruct (REP _ _ _ E) as (s & -> & F). cbn in A, C. cbn [rgenerate] in G. apply bind_ok in G. destruct G as ([x k1] & G1 & G).
    econstructor. eapply rep_fits; [|exact G]. intros. eapply F; try eassumption; discriminate.
  - destruct (REP _ _ _ E) as (s & -> & F). cbn in A, C. cbn [rgenerate] in G. apply bind_ok in G. destruct G as ([x k1] & G1 & G).
    pose proof (intn_ok _ _ _ G1). cbn [fst snd] in *.
    econstructor; [|eapply rep_fits; [|exact G]; intros; eapply F; try eassumption; discriminate]. change (if 1 =? -1 then aMin a else 1) with 1. lia.
  - destruct (REP _ _ _ E) as (s & -> & F). cbn in A, C. cbn [rgenerate] in G. apply bind_ok in G. destruct G as ([x k1] & G1 & G).
    pose proof (intn_ok _ _ _ G1) as B. cbn in B. cbn [fst snd Z.eqb] in *.
    assert (Hn : (Z.to_nat (0 + x) <= 1)%nat) by lia. revert G Hn. generalize (Z.to_nat (0 + x)). intros n G Hn.
    econstructor; [exact Hn|]. destruct n as [|[|n]]; [| |lia]; cbn in G |- *.
    + injection G as <- _. constructor.
    + apply bind_ok in G. destruct G as ([u k2] & G2 & G). cbn in G. injection G as <- _. rewrite app_nil_r.
      rewrite <- (app_nil_r u). constructor; [|constructor]. cbn [app]. eapply F; eassumption.
  - destruct (REP _ _ _ E) as (s & -> & F). cbn in A, C. destruct C as (C1 & C2 & C3). cbn [rgenerate] in G. apply bind_ok in G. destruct G as ([x k1] & G1 & G).
    pose proof (intn_ok _ _ _ G1). cbn [fst snd] in *.
    econstructor; [| |eapply rep_fits; [|exact G]; intros; eapply F; try eassumption; discriminate].
    + destruct (Z.eqb_spec lo (-1)); lia.
    + destruct (Z.eqb_spec hi (-1)); [left; assumption|right]. destruct (Z.eqb_spec lo (-1)); lia.
  - apply bind_ok in E. destruct E as ([gs|m] & E1 & E2); [|discriminate]. injection E2 as <-. apply newGens_ok in E1.
    constructor. eapply cat_fits; try eassumption. clear - E1 IH. induction E1; constructor; auto.
  - apply bind_ok in E. destruct E as ([gs|m] & E1 & E2); [|discriminate]. injection E2 as <-. apply newGens_ok in E1.
    cbn [rgenerate] in G. apply bind_ok in G. destruct G as ([x k1] & G1 & G). destruct (pick_in _ _ _ _ G) as (g & I & G2).
    destruct (Forall2_in_r _ _ _ _ _ _ E1 I) as (r & Ir & Er).
    econstructor; [exact Ir|]. eapply (IH _ _ Er); try eassumption.
    + cbn in A. rewrite forallb_forall in A. auto.
    + clear - C Ir. induction l as [|y l IHl]; [destruct Ir|]. cbn in C. destruct C as [C1 C2]. destruct Ir as [<-|Ir]; [exact C1|]. exact (IHl C2 Ir).
Qed.

End Gen.
