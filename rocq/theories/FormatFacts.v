(* Facts about the format validators: each against its grammar *)
From Coq Require Import ZArith List String Ascii Bool Lia.
From Verif Require Import Base Json RefPath RefProps Parse Formats SpecFormats.
Import ListNotations.
Open Scope string_scope.
Open Scope Z_scope.

(* ---------------------------------------------------------- bytes and pieces *)
Lemma byteIn_iff : forall a z c, byteIn a z c = true <-> inRange a z c.
Proof. intros. unfold byteIn, inRange, code. rewrite andb_true_iff, !Z.leb_le. tauto. Qed.
Lemma isDigit_byteIn : forall c, isDigit c = byteIn "0" "9" c.
Proof. reflexivity. Qed.
Lemma isHex_iff : forall c, isHex c = true <-> (inRange "0" "9" c \/ inRange "a" "f" c \/ inRange "A" "F" c).
Proof. intros. unfold isHex. rewrite !orb_true_iff, !byteIn_iff. tauto. Qed.
Lemma app_String : forall c x y, String c x ++ y = String c (x ++ y).
Proof. reflexivity. Qed.
Lemma one_app : forall p x, one p x -> exists c, p c /\ forall y, x ++ y = String c y.
Proof. intros p x (c & P & ->). exists c. split; auto. Qed.

(* ---------------------------------------------------------- uuid *)
Lemma parseHex_ok : forall n str r, parseHex n str = Some r -> exists x, times n hexDigit x /\ str = x ++ r.
Proof.
  induction n as [|n IH]; intros str r H; cbn [parseHex] in H.
  - injection H as <-. exists "". split; [reflexivity|]. reflexivity.
  - destruct str as [|c str]; [discriminate|]. destruct (isHex c) eqn:E; [|discriminate].
    apply IH in H. destruct H as (x & T & ->). exists (String c x). split; [|reflexivity].
    cbn [times]. exists (String c ""), x. split; [|auto]. exists c. split; auto. now apply isHex_iff.
Qed.
Lemma parseHex_made : forall n x r, times n hexDigit x -> parseHex n (x ++ r) = Some r.
Proof.
  induction n as [|n IH]; intros x r H.
  - unfold times, lit in H. subst. reflexivity.
  - cbn [times] in H. destruct H as (a & b & (c & C & ->) & T & ->). cbn [append parseHex].
    apply isHex_iff in C. rewrite C. auto.
Qed.
Lemma cat_made : forall (a b : lang) x y, a x -> b y -> cat a b (x ++ y).
Proof. intros a b x y A B. exists x, y. auto. Qed.
Lemma uuid_made : forall a b c d e, times 8 hexDigit a -> times 4 hexDigit b -> times 4 hexDigit c -> times 4 hexDigit d -> times 12 hexDigit e ->
  uuid (a ++ String "-" (b ++ String "-" (c ++ String "-" (d ++ String "-" e)))).
Proof.
  intros a b c d e A B C D F.
  replace (a ++ String "-" (b ++ String "-" (c ++ String "-" (d ++ String "-" e))))
    with ((((((((a ++ "-") ++ b) ++ "-") ++ c) ++ "-") ++ d) ++ "-") ++ e) by (rewrite !append_assoc; reflexivity).
  unfold uuid. do 8 (apply (cat_made _ _ _ _); [|first [assumption | exact eq_refl]]). assumption.
Qed.
Lemma uuid_iff : forall str, isUUID str = true <-> uuid str.
Proof.
  intros str. unfold isUUID, uuid. split; intros H.
  - cbn [uuidGroups] in H.
    do 4 (match type of H with match parseHex ?n ?s with _ => _ end = _ =>
      let E := fresh "E" in destruct (parseHex n s) as [[|? ?]|] eqn:E; try discriminate; apply parseHex_ok in E; destruct E as (? & ? & ?);
      apply andb_prop in H; let E2 := fresh "E" in destruct H as [E2 H]; apply Ascii.eqb_eq in E2 end).
    match type of H with match parseHex ?n ?s with _ => _ end = _ => destruct (parseHex n s) eqn:E; try discriminate end.
    apply parseHex_ok in E. destruct E as (? & ? & ?). apply String.eqb_eq in H. subst.
    rewrite append_nil. apply uuid_made; assumption.
  - destruct H as (? & e & (? & ? & (? & d & (? & ? & (? & c & (? & ? & (? & b & (a & ? & A & -> & ->) & B & ->) & -> & ->) & C & ->) & -> & ->) & D & ->) & -> & ->) & F & ->).
    rewrite !append_assoc. cbn [uuidGroups].
    repeat (rewrite parseHex_made by eassumption; cbn [append]; rewrite Ascii.eqb_refl; cbn [andb]).
    rewrite <- (append_nil e), parseHex_made by eassumption. reflexivity.
Qed.

(* ---------------------------------------------------------- splitting *)
Definition lacks (c : ascii) (str : string) : Prop := ~ In c (list_ascii_of_string str).
Lemma lacks_app : forall c x y, lacks c (x ++ y) <-> lacks c x /\ lacks c y.
Proof.
  unfold lacks. intros c x y. induction x as [|d x IH]; cbn [append list_ascii_of_string In]; [tauto|]. tauto.
Qed.
Lemma splitOn_some : forall sep str, splitOn sep str <> [].
Proof. intros sep [|c r]; cbn [splitOn]; [discriminate|]. destruct (Ascii.eqb c sep); [discriminate|]. induction r; cbn [splitOn]; [discriminate|]. destruct (Ascii.eqb a sep); [discriminate|]. destruct (splitOn sep r); congruence. Qed.
Lemma splitOn_joined : forall sep str, joined (String sep "") (splitOn sep str) = str.
Proof.
  intros sep. induction str as [|c r IH]; [reflexivity|]. cbn [splitOn]. destruct (Ascii.eqb_spec c sep) as [->|N].
  - pose proof (splitOn_some sep r). destruct (splitOn sep r) eqn:E; [congruence|]. cbn [joined append] in *. rewrite IH. reflexivity.
  - pose proof (splitOn_some sep r). destruct (splitOn sep r) as [|h t] eqn:E; [congruence|]. rewrite <- IH. destruct t; reflexivity.
Qed.
Lemma splitOn_lacks : forall sep str, Forall (lacks sep) (splitOn sep str).
Proof.
  intros sep. induction str as [|c r IH]; cbn [splitOn]; [constructor; [intros []|constructor]|].
  destruct (Ascii.eqb_spec c sep) as [->|N]; [constructor; [intros []|auto]|].
  destruct (splitOn sep r); [constructor|]. inversion IH; subst. constructor; auto. intros [I|I]; [congruence|]. exact (H1 I).
Qed.
Lemma splitOn_one : forall sep x, lacks sep x -> splitOn sep x = [x].
Proof.
  intros sep. induction x as [|c x IH]; intros H; [reflexivity|]. cbn [splitOn]. destruct (Ascii.eqb_spec c sep) as [->|N].
  - destruct H. left. reflexivity.
  - rewrite IH; [reflexivity|]. intros I. apply H. right. exact I.
Qed.
Lemma splitOn_app : forall sep x r, lacks sep x -> splitOn sep (x ++ String sep r) = x :: splitOn sep r.
Proof.
  intros sep. induction x as [|c x IH]; intros r H; cbn [append splitOn].
  - rewrite Ascii.eqb_refl. reflexivity.
  - destruct (Ascii.eqb_spec c sep) as [->|N]; [destruct H; left; reflexivity|]. rewrite IH; [reflexivity|]. intros I. apply H. right. exact I.
Qed.
Lemma splitOn_of_joined : forall sep parts, parts <> [] -> Forall (lacks sep) parts -> splitOn sep (joined (String sep "") parts) = parts.
Proof.
  intros sep. induction parts as [|x parts IH]; intros N F; [congruence|]. inversion F; subst. destruct parts as [|y parts].
  - cbn [joined]. now apply splitOn_one.
  - change (joined (String sep "") (x :: y :: parts)) with (x ++ String sep (joined (String sep "") (y :: parts))).
    rewrite splitOn_app by auto. rewrite IH; [reflexivity|discriminate|auto].
Qed.

(* ---------------------------------------------------------- json-pointer *)
Lemma tildesOk_tail : forall c r, tildesOk (String c r) = true -> tildesOk r = true.
Proof. intros c r H. cbn [tildesOk] in H. apply andb_prop in H. tauto. Qed.
Lemma token_of : forall n x, (String.length x <= n)%nat -> lacks "/" x -> tildesOk x = true -> token x.
Proof.
  induction n as [|n IH]; intros x L F T.
  - destruct x; [constructor|cbn in L; lia].
  - destruct x as [|c r]; [constructor|]. cbn [String.length] in L.
    assert (Fr : lacks "/" r) by (intros I; apply F; right; exact I).
    pose proof (tildesOk_tail _ _ T) as Tr. cbn [tildesOk] in T. destruct (Ascii.eqb_spec c "~") as [->|N].
    + destruct r as [|d r]; [discriminate|]. pose proof (tildesOk_tail _ _ Tr) as Tr'.
      assert (Fr' : lacks "/" r) by (intros I; apply Fr; right; exact I).
      assert (token r) by (apply IH; auto; cbn [String.length] in L; lia).
      apply andb_prop in T. destruct T as [T _]. apply orb_prop in T. destruct T as [T|T]; apply Ascii.eqb_eq in T; subst d.
      * change (String "~" (String "0" r)) with ("~0" ++ r). constructor; auto. left. right. reflexivity.
      * change (String "~" (String "1" r)) with ("~1" ++ r). constructor; auto. right. reflexivity.
    + change (String c r) with (String c "" ++ r). constructor; [|apply IH; auto; lia].
      left. left. exists c. split; auto. split; auto. intros ->. apply F. left. reflexivity.
Qed.
Lemma token_ok : forall x, token x -> lacks "/" x /\ tildesOk x = true.
Proof.
  intros x H. induction H as [|a y A _ [F T]]; [split; [intros []|reflexivity]|].
  destruct A as [[(c & (N1 & N2) & ->)| ->]| ->]; cbn [append].
  - split; [intros [I|I]; [congruence|auto]|]. cbn [tildesOk]. destruct (Ascii.eqb_spec c "~"); [congruence|]. exact T.
  - split; [intros [I|[I|I]]; [discriminate|discriminate|auto]|]. cbn [tildesOk]. rewrite T. reflexivity.
  - split; [intros [I|[I|I]]; [discriminate|discriminate|auto]|]. cbn [tildesOk]. rewrite T. reflexivity.
Qed.
Lemma pointer_iff : forall str, isJSONPointer str = true <-> jsonPointer str.
Proof.
  intros str. unfold isJSONPointer. split; intros H.
  - apply andb_prop in H. destruct H as [S F]. destruct str as [|c r]; [constructor|].
    cbn [String.eqb orb String.prefix] in S. destruct (ascii_dec "/" c) as [<-|]; [|discriminate].
    cbn [splitOn] in F. rewrite Ascii.eqb_refl in F. cbn [forallb tildesOk andb] in F.
    rewrite <- (splitOn_joined "/" r). pose proof (splitOn_lacks "/" r) as LK. pose proof (splitOn_some "/" r) as NE. clear S.
    revert F LK NE. generalize (splitOn "/" r). intros l. induction l as [|x l IH]; intros F LK NE; [congruence|].
    cbn [forallb] in F. apply andb_prop in F. destruct F as [F1 F2]. inversion LK; subst.
    assert (token x) by (eapply token_of; eauto). destruct l as [|y l].
    + cbn [joined]. rewrite <- (append_nil (String "/" x)). constructor; [|constructor]. exists "/", x. auto using eq_refl. 
      split; [reflexivity|auto].
    + change (String "/" (joined "/" (x :: y :: l))) with (("/" ++ x ++ String "/" (joined "/" (y :: l)))).
      rewrite <- append_assoc. constructor; [exists "/", x; split; [reflexivity|auto]|]. apply IH; auto. discriminate.
  - induction H as [|a y A H IH]; [reflexivity|]. destruct A as (p & t & -> & T & ->). destruct (token_ok _ T) as [F O].
    apply andb_true_intro. split; [cbn [append]; destruct (t ++ y); reflexivity|]. cbn [append splitOn]. rewrite Ascii.eqb_refl. cbn [forallb tildesOk andb].
    destruct H as [|b y B H].
    + rewrite append_nil, splitOn_one by auto. cbn [forallb]. rewrite O. reflexivity.
    + destruct B as (p & u & -> & U & ->). cbn [append] in *. rewrite splitOn_app by auto. cbn [forallb]. rewrite O. 
      cbn [splitOn] in IH. rewrite Ascii.eqb_refl in IH. apply andb_prop in IH. exact (proj2 IH).
Qed.

(* ---------------------------------------------------------- digits *)
Lemma skipDigits_eq : forall str, exists x, star digit x /\ str = x ++ snd (skipDigits str) /\ (fst (skipDigits str) = true -> some digit x) /\
  (fst (skipDigits str) = false -> x = "") /\ (forall c r, snd (skipDigits str) = String c r -> byteIn "0" "9" c = false).
Proof.
  induction str as [|c r (x & S & E & A & B & C)].
  - exists "". repeat split; try constructor; try discriminate.
  - cbn [skipDigits]. destruct (byteIn "0" "9" c) eqn:D; cbn [fst snd].
    + assert (digit (String c "")) by (exists c; split; auto; now apply byteIn_iff).
      exists (String c x). change (String c x) with (String c "" ++ x). split; [constructor; auto|]. split; [rewrite append_assoc, <- E; reflexivity|].
      split; [exists (String c ""), x; auto|]. split; [discriminate|auto].
    + exists "". split; [constructor|]. split; [reflexivity|]. split; [discriminate|]. split; [auto|]. intros c0 r0 H. injection H as <- <-. exact D.
Qed.
Definition stops (r : string) : Prop := forall c t, r = String c t -> byteIn "0" "9" c = false.
Lemma skipDigits_star : forall x r, star digit x -> stops r -> snd (skipDigits (x ++ r)) = r /\ fst (skipDigits (x ++ r)) = negb (String.eqb x "").
Proof.
  intros x r H D. induction H as [|a y (c & C & ->) _ [IH _]].
  - cbn [append]. destruct r as [|c t]; [auto|]. cbn [skipDigits]. rewrite (D c t eq_refl). auto.
  - cbn [append skipDigits]. apply byteIn_iff in C. rewrite C. cbn [fst snd]. auto.
Qed.

(* ---------------------------------------------------------- relative pointers *)
Lemma pointer_stops : forall y, y = "#" \/ jsonPointer y -> stops y.
Proof.
  intros y [->|H] c t E; [injection E as <- <-; reflexivity|]. destruct H as [|a z (p & q & -> & _ & ->) _]; [discriminate|].
  cbn [append] in E. injection E as <- _. reflexivity.
Qed.
Lemma relative_iff : forall str, isRelativeJSONPointer str = true <-> relativePointer str.
Proof.
  intros str. split; intros H.
  - destruct str as [|c r]; [discriminate|]. unfold isRelativeJSONPointer in H. cbv zeta in H.
    destruct (Ascii.eqb_spec c "0") as [->|N].
    + exists "0", r. split; [left; reflexivity|]. split; [|reflexivity]. apply orb_prop in H. destruct H as [H|H].
      * left. now apply String.eqb_eq.
      * right. now apply pointer_iff.
    + destruct (byteIn "0" "9" c) eqn:D; [|discriminate]. cbn [skipDigits] in H. rewrite D in H. cbn [snd] in H.
      destruct (skipDigits_eq r) as (x & S & E & _).
      exists (String c x), (snd (skipDigits r)). split; [|split].
      * right. exists (String c ""), x. split; [|auto]. exists c. split; auto. apply byteIn_iff in D. unfold inRange, code in *.
        destruct (Z.eq_dec (Z.of_nat (nat_of_ascii c)) 48) as [Q|Q].
        -- exfalso. apply N. rewrite <- (ascii_nat_embedding c). replace (nat_of_ascii c) with 48%nat by lia. reflexivity.
        -- change (Z.of_nat (nat_of_ascii "0")) with 48 in D. change (Z.of_nat (nat_of_ascii "1")) with 49. lia.
      * apply orb_prop in H. destruct H as [H|H]; [left; now apply String.eqb_eq|right; now apply pointer_iff].
      * cbn [append]. rewrite <- E. reflexivity.
  - destruct H as (x & y & X & Y & ->).
    assert (O : String.eqb y "#" || isJSONPointer y = true).
    { apply orb_true_intro. destruct Y as [Y|Y]; [left; now apply String.eqb_eq|right; now apply pointer_iff]. }
    destruct X as [->|(a & b & (c & C & ->) & B & ->)].
    + cbn [append isRelativeJSONPointer]. rewrite Ascii.eqb_refl. exact O.
    + cbn [append]. unfold isRelativeJSONPointer. cbv zeta. destruct (Ascii.eqb_spec c "0") as [->|N].
      * exfalso. destruct C as [C _]. vm_compute in C. congruence.
      * assert (D : byteIn "0" "9" c = true).
        { apply byteIn_iff. unfold inRange, code in *. change (Z.of_nat (nat_of_ascii "0")) with 48. change (Z.of_nat (nat_of_ascii "1")) with 49 in C. lia. }
        rewrite D. cbn [skipDigits]. rewrite D. cbn [snd]. destruct (skipDigits_star b y B) as [-> _]; [|exact O].
        apply pointer_stops. exact Y.
Qed.

(* ---------------------------------------------------------- durations *)
(* counted units, one for each character of us *)
Inductive units : string -> string -> Prop :=
| units_nil : units "" ""
| units_cons : forall c us d x, byteIn "0" "9" c = false -> counted (String c "") d -> units us x -> units (String c us) (d ++ x).
Lemma parseUnits_ok : forall str digits us rest, parseUnits digits str = Some (us, rest) ->
  exists x, str = x ++ rest /\ (rest = "" \/ exists r, rest = String "T" r) /\
    if digits then exists d y c us', star digit d /\ byteIn "0" "9" c = false /\ x = d ++ String c y /\ us = String c us' /\ units us' y else units us x.
Proof.
  induction str as [|c r IH]; intros digits us rest H; cbn [parseUnits] in H.
  - destruct digits; [discriminate|]. injection H as <- <-. exists "". repeat split; auto. constructor.
  - destruct (byteIn "0" "9" c) eqn:D.
    + apply IH in H. destruct H as (x & -> & R & d & y & c' & us' & S & N & -> & -> & U). 
      assert (DC : digit (String c "")) by (exists c; split; auto; now apply byteIn_iff).
      exists (String c (d ++ String c' y)). split; [reflexivity|]. split; auto. destruct digits.
      * exists (String c d), y, c', us'. change (String c d) with (String c "" ++ d) at 1. repeat split; auto. constructor; auto.
      * replace (String c (d ++ String c' y)) with ((String c d ++ String c' "") ++ y) by (rewrite append_assoc; reflexivity).
        constructor; auto. exists (String c d), (String c' ""). split; [|split; reflexivity]. exists (String c ""), d. auto.
    + destruct digits.
      * destruct (parseUnits false r) as [[us' rest']|] eqn:P; [|discriminate]. injection H as <- <-. apply IH in P.
        destruct P as (x & -> & R & U). exists (String c x). split; [reflexivity|]. split; auto.
        exists "", x, c, us'. repeat split; auto. constructor.
      * destruct (Ascii.eqb_spec c "T") as [->|]; [|discriminate]. injection H as <- <-. exists "". repeat split; eauto. constructor.
Qed.
Lemma parseUnits_digits : forall d r, star digit d -> parseUnits true (d ++ r) = parseUnits true r.
Proof. intros d r H. induction H as [|a y (c & C & ->) _ IH]; [reflexivity|]. cbn [append parseUnits]. apply byteIn_iff in C. rewrite C. exact IH. Qed.
Lemma parseUnits_made : forall us x rest, units us x -> rest = "" \/ (exists r, rest = String "T" r) -> parseUnits false (x ++ rest) = Some (us, rest).
Proof.
  intros us x rest H R. induction H as [|c us d x N C U IH].
  - destruct R as [->|(r & ->)]; reflexivity.
  - destruct C as (a & b & (d1 & d2 & (c1 & C1 & ->) & S & ->) & -> & ->). rewrite !append_assoc. cbn [append parseUnits].
    apply byteIn_iff in C1. rewrite C1. rewrite parseUnits_digits by exact S. cbn [parseUnits]. rewrite N, IH. reflexivity.
Qed.
Lemma contains_date : forall us, us <> "" -> containsStr us "YMD" = true -> In us ["Y"; "M"; "D"; "YM"; "MD"; "YMD"].
Proof.
  intros us N H. destruct us as [|a [|b [|c [|d us]]]]; [congruence|..]; cbn [containsStr String.prefix] in H;
    repeat match type of H with context [ascii_dec ?x ?y] => destruct (ascii_dec x y) as [<-|]; cbn [orb] in H; try discriminate end; cbn [In]; tauto.
Qed.
Lemma contains_time : forall us, us <> "" -> containsStr us "HMS" = true -> In us ["H"; "M"; "S"; "HM"; "MS"; "HMS"].
Proof.
  intros us N H. destruct us as [|a [|b [|c [|d us]]]]; [congruence|..]; cbn [containsStr String.prefix] in H;
    repeat match type of H with context [ascii_dec ?x ?y] => destruct (ascii_dec x y) as [<-|]; cbn [orb] in H; try discriminate end; cbn [In]; tauto.
Qed.
Lemma units_inv : forall us x, units us x -> match us with "" => x = "" | String c us' => exists d y, counted (String c "") d /\ units us' y /\ x = d ++ y end.
Proof. intros us x H. destruct H; eauto. Qed.
Lemma units_one : forall c d, byteIn "0" "9" c = false -> counted (String c "") d -> units (String c "") d.
Proof. intros. rewrite <- (append_nil d). constructor; auto. constructor. Qed.
Ltac uinv H := apply units_inv in H; cbv beta iota in H; let d := fresh "d" in let y := fresh "y" in let C := fresh "C" in destruct H as (d & y & C & H & ->).
Ltac uend H := match type of H with units EmptyString _ => idtac end; apply units_inv in H; cbv beta iota in H; subst; rewrite ?append_nil.
Lemma date_units : forall x, (exists us, In us ["Y"; "M"; "D"; "YM"; "MD"; "YMD"] /\ units us x) <-> (durDay ∪ durMonth ∪ durYear) x.
Proof.
  intros x. split.
  - intros (us & I & U). cbn [In] in I. destruct I as [<-|[<-|[<-|[<-|[<-|[<-|[]]]]]]]; repeat (first [uend U | uinv U]).
    + right. exists d, "". split; [auto|]. split; [left; reflexivity|now rewrite append_nil].
    + left. right. exists d, "". split; [auto|]. split; [left; reflexivity|now rewrite append_nil].
    + left. left. auto.
    + right. exists d, d0. split; [auto|]. split; [|reflexivity]. right. exists d0, "". split; auto. split; [left; reflexivity|now rewrite append_nil].
    + left. right. exists d, d0. split; [auto|]. split; [|reflexivity]. right. auto.
    + right. exists d, (d0 ++ d1). split; [auto|]. split; [|reflexivity]. right. exists d0, d1. split; auto. split; [right; auto|reflexivity].
  - assert (MO : forall z, durMonth z -> exists us, In us ["M"; "MD"] /\ units us z).
    { intros z (a & b & A & B & ->). destruct B as [->|B].
      - exists "M". split; [cbn; auto|]. rewrite append_nil. now apply units_one.
      - exists "MD". split; [cbn; auto|]. constructor; auto. now apply units_one. }
    intros [[D|M]|(a & b & A & B & ->)].
    + exists "D". split; [cbn; auto|now apply units_one].
    + destruct (MO _ M) as (us & I & U). exists us. split; auto. cbn [In] in *. tauto.
    + destruct B as [->|B].
      * exists "Y". split; [cbn; auto|]. rewrite append_nil. now apply units_one.
      * destruct (MO _ B) as (us & I & U). exists (String "Y" us). split; [|constructor; auto]. cbn [In] in *.
        destruct I as [<-|[<-|[]]]; tauto.
Qed.
Lemma time_units : forall x, (exists us, In us ["H"; "M"; "S"; "HM"; "MS"; "HMS"] /\ units us x) <-> (durHour ∪ durMinute ∪ durSecond) x.
Proof.
  intros x. split.
  - intros (us & I & U). cbn [In] in I. destruct I as [<-|[<-|[<-|[<-|[<-|[<-|[]]]]]]]; repeat (first [uend U | uinv U]).
    + left. left. exists d, "". split; [auto|]. split; [left; reflexivity|now rewrite append_nil].
    + left. right. exists d, "". split; [auto|]. split; [left; reflexivity|now rewrite append_nil].
    + right. auto.
    + left. left. exists d, d0. split; [auto|]. split; [|reflexivity]. right. exists d0, "". split; auto. split; [left; reflexivity|now rewrite append_nil].
    + left. right. exists d, d0. split; [auto|]. split; [|reflexivity]. right. auto.
    + left. left. exists d, (d0 ++ d1). split; [auto|]. split; [|reflexivity]. right. exists d0, d1. split; auto. split; [right; auto|reflexivity].
  - assert (MO : forall z, durMinute z -> exists us, In us ["M"; "MS"] /\ units us z).
    { intros z (a & b & A & B & ->). destruct B as [->|B].
      - exists "M". split; [cbn; auto|]. rewrite append_nil. now apply units_one.
      - exists "MS". split; [cbn; auto|]. constructor; auto. now apply units_one. }
    intros [[(a & b & A & B & ->)|M]|D].
    + destruct B as [->|B].
      * exists "H". split; [cbn; auto|]. rewrite append_nil. now apply units_one.
      * destruct (MO _ B) as (us & I & U). exists (String "H" us). split; [|constructor; auto]. cbn [In] in *.
        destruct I as [<-|[<-|[]]]; tauto.
    + destruct (MO _ M) as (us & I & U). exists us. split; auto. cbn [In] in *. tauto.
    + exists "S". split; [cbn; auto|now apply units_one].
Qed.
Lemma durationTime_iff : forall str, durationTime str = true <-> durTime str.
Proof.
  intros str. unfold durationTime, durTime. split; intros H.
  - destruct str as [|c r]; [discriminate|]. apply andb_prop in H. destruct H as [E H]. apply Ascii.eqb_eq in E. subst c.
    destruct (parseUnits false r) as [[us rest]|] eqn:P; [|discriminate]. apply andb_prop in H. destruct H as [H C].
    apply andb_prop in H. destruct H as [Er Eu]. apply String.eqb_eq in Er. subst rest. apply parseUnits_ok in P.
    destruct P as (x & -> & _ & U). exists "T", (x ++ ""). split; [reflexivity|]. split; [|reflexivity]. rewrite append_nil.
    apply time_units. exists us. split; auto. apply contains_time; auto. intros ->. discriminate.
  - destruct H as (p & x & -> & X & ->). cbn [append]. rewrite Ascii.eqb_refl. cbn [andb]. apply time_units in X.
    destruct X as (us & I & U). rewrite <- (append_nil x), (parseUnits_made us) by auto. cbn [In] in I. 
    destruct I as [<-|[<-|[<-|[<-|[<-|[<-|[]]]]]]]; reflexivity.
Qed.
Lemma week_units : forall x, units "W" x <-> durWeek x.
Proof. intros x. split; intros H; [uinv H; uend H; auto|now apply units_one]. Qed.
Lemma duration_iff : forall str, isDuration str = true <-> duration str.
Proof.
  intros str. unfold isDuration, duration. split; intros H.
  - destruct str as [|c r]; [discriminate|]. apply andb_prop in H. destruct H as [E H]. apply Ascii.eqb_eq in E. subst c.
    exists "P", r. split; [reflexivity|]. split; [|reflexivity].
    destruct (parseUnits false r) as [[us rest]|] eqn:P; [|discriminate]. apply parseUnits_ok in P.
    destruct P as (x & -> & R & U). cbv iota in U. destruct (String.eqb_spec us "W") as [->|NW].
    + apply String.eqb_eq in H. subst rest. rewrite append_nil. right. now apply week_units.
    + destruct (String.eqb_spec us "") as [->|NE]; cbn [negb] in H.
      * apply units_inv in U. cbv iota in U. subst x. cbn [append]. left. right. now apply durationTime_iff.
      * destruct (containsStr us "YMD") eqn:C; [|discriminate]. cbn [negb] in H. apply contains_date in C; auto.
        assert (D : (durDay ∪ durMonth ∪ durYear) x) by (apply date_units; eauto).
        left. left. exists x, rest. split; [exact D|]. split; [|reflexivity]. destruct (String.eqb_spec rest "") as [->|]; [left; reflexivity|].
        right. now apply durationTime_iff.
  - destruct H as (p & r & -> & H & ->). cbn [append]. rewrite Ascii.eqb_refl. cbn [andb].
    assert (TT : forall y, durTime y -> exists z, y = String "T" z) by (intros y (a & b & -> & _ & ->); eexists; reflexivity).
    destruct H as [[(x & y & X & Y & ->)|T]|W].
    + apply date_units in X. destruct X as (us & I & U).
      assert (RY : y = "" \/ exists z, y = String "T" z) by (destruct Y as [Y|Y]; [left; exact Y|right; auto]).
      rewrite (parseUnits_made us) by auto.
      assert (Q : String.eqb us "W" = false /\ String.eqb us "" = false /\ containsStr us "YMD" = true).
      { cbn [In] in I. destruct I as [<-|[<-|[<-|[<-|[<-|[<-|[]]]]]]]; repeat split. }
      destruct Q as (-> & -> & ->). cbn [negb]. destruct (String.eqb_spec y ""); [reflexivity|]. destruct Y as [Y|Y]; [contradiction|].
      now apply durationTime_iff.
    + assert (RY : exists z, r = String "T" z) by auto. change r with ("" ++ r) at 1. rewrite (parseUnits_made ""); [|constructor|auto].
      cbn [String.eqb negb]. now apply durationTime_iff.
    + rewrite <- (append_nil r). apply week_units in W. rewrite (parseUnits_made "W") by auto. reflexivity.
Qed.
