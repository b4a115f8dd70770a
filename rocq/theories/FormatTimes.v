(* Facts about the validators of dates and times: each against its grammar *)
From Coq Require Import ZArith List String Ascii Bool Lia.
From Verif Require Import Base Json RefPath RefProps Parse Formats SpecFormats FormatFacts.
Import ListNotations.
Open Scope string_scope.
Open Scope Z_scope.
Local Opaque Z.mul Z.add Z.div Z.modulo Z.quot Z.rem.

(* ---------------------------------------------------------- digits *)
Definition chr (d : Z) : ascii := ascii_of_nat (Z.to_nat (48 + d)).
Lemma chr_code : forall d, 0 <= d <= 9 -> Z.of_nat (nat_of_ascii (chr d)) = 48 + d.
Proof. intros d D. unfold chr. rewrite nat_ascii_embedding by lia. lia. Qed.
Lemma isDigit_chr : forall c, isDigit c = true <-> exists d, 0 <= d <= 9 /\ c = chr d.
Proof.
  intros c. unfold isDigit. cbv zeta. split.
  - intros H. apply andb_prop in H. destruct H as [A B]. apply Z.leb_le in A. apply Z.leb_le in B.
    exists (Z.of_nat (nat_of_ascii c) - 48). split; [lia|]. unfold chr. replace (Z.to_nat _) with (nat_of_ascii c) by lia.
    symmetry. apply ascii_nat_embedding.
  - intros (d & D & ->). rewrite chr_code by exact D. apply andb_true_intro. split; apply Z.leb_le; lia.
Qed.
Lemma padded_two : forall d e, 0 <= d <= 9 -> 0 <= e <= 9 -> padded 2 (10 * d + e) = String (chr d) (String (chr e) "").
Proof.
  intros d e D E. cbn [padded append]. unfold chr. f_equal; [f_equal; f_equal; f_equal|f_equal; f_equal; f_equal; f_equal]; Z.div_mod_to_equations; lia.
Qed.
Lemma padded_one : forall d, 0 <= d <= 9 -> padded 1 d = String (chr d) "".
Proof. intros d D. cbn [padded append]. unfold chr. rewrite Z.mod_small by lia. reflexivity. Qed.
Lemma padded_four : forall a b c d, 0 <= a <= 9 -> 0 <= b <= 9 -> 0 <= c <= 9 -> 0 <= d <= 9 ->
  padded 4 (1000 * a + 100 * b + 10 * c + d) = String (chr a) (String (chr b) (String (chr c) (String (chr d) ""))).
Proof.
  intros a b c d A B C D. cbn [padded append]. unfold chr.
  assert (E3 : (1000 * a + 100 * b + 10 * c + d) mod 10 = d) by (Z.div_mod_to_equations; lia).
  assert (F3 : (1000 * a + 100 * b + 10 * c + d) / 10 = 100 * a + 10 * b + c) by (Z.div_mod_to_equations; lia).
  assert (E2 : (100 * a + 10 * b + c) mod 10 = c) by (Z.div_mod_to_equations; lia).
  assert (F2 : (100 * a + 10 * b + c) / 10 = 10 * a + b) by (Z.div_mod_to_equations; lia).
  assert (E1 : (10 * a + b) mod 10 = b) by (Z.div_mod_to_equations; lia).
  assert (F1 : (10 * a + b) / 10 = a) by (Z.div_mod_to_equations; lia).
  rewrite F3, F2, F1, E3, E2, E1, Z.mod_small by lia. reflexivity.
Qed.
Lemma two_split : forall n, 0 <= n <= 99 -> exists d e, 0 <= d <= 9 /\ 0 <= e <= 9 /\ n = 10 * d + e.
Proof. intros n N. exists (n / 10), (n mod 10). Z.div_mod_to_equations; lia. Qed.
Lemma four_split : forall n, 0 <= n <= 9999 -> exists a b c d, 0 <= a <= 9 /\ 0 <= b <= 9 /\ 0 <= c <= 9 /\ 0 <= d <= 9 /\ n = 1000 * a + 100 * b + 10 * c + d.
Proof.
  intros n N. destruct (two_split (n / 100)) as (a & b & A & B & E); [Z.div_mod_to_equations; lia|].
  destruct (two_split (n mod 100)) as (c & d & C & D & F); [Z.div_mod_to_equations; lia|].
  exists a, b, c, d. repeat split; try lia. Z.div_mod_to_equations; lia.
Qed.

(* ---------------------------------------------------------- fields *)
Lemma in_int64 : forall (z : Z) (A : Type) (x y : A), -100 <= z <= 100 -> (if (- 2 ^ 63 <=? z) && (z <? 2 ^ 63) then x else y) = x.
Proof.
  intros z A x y R. destruct (Z.leb_spec (- 2 ^ 63) z) as [_|L]; [|exfalso; revert L; change (2 ^ 63) with 9223372036854775808; lia].
  destruct (Z.ltb_spec z (2 ^ 63)) as [_|L]; [reflexivity|exfalso; revert L; change (2 ^ 63) with 9223372036854775808; lia].
Qed.
Lemma atoi_digits : forall d e, 0 <= d <= 9 -> 0 <= e <= 9 -> atoi (String (chr d) (String (chr e) "")) = Some (10 * d + e).
Proof.
  intros d e D E. unfold atoi.
  assert (Dd : isDigit (chr d) = true) by (apply isDigit_chr; eauto). assert (De : isDigit (chr e) = true) by (apply isDigit_chr; eauto).
  destruct (Ascii.eqb_spec (chr d) "-") as [Q|_]; [rewrite Q in Dd; discriminate|].
  destruct (Ascii.eqb_spec (chr d) "+") as [Q|_]; [rewrite Q in Dd; discriminate|].
  cbn [String.eqb digitsVal]. rewrite Dd, De, !chr_code by lia. cbv zeta. rewrite in_int64 by lia. f_equal. lia.
Qed.
Lemma atoi_signed : forall c e, c = "+"%char \/ c = "-"%char -> 0 <= e <= 9 -> atoi (String c (String (chr e) "")) = Some (if Ascii.eqb c "-" then - e else e).
Proof.
  intros c e C E. unfold atoi. assert (De : isDigit (chr e) = true) by (apply isDigit_chr; eauto).
  destruct C as [-> | ->].
  - change (Ascii.eqb "+" "-") with false. change (Ascii.eqb "+" "+") with true. cbv iota. cbn [String.eqb digitsVal].
    rewrite De, chr_code by lia. cbv zeta. rewrite in_int64 by lia. f_equal. lia.
  - change (Ascii.eqb "-" "-") with true. cbv iota. cbn [String.eqb digitsVal].
    rewrite De, chr_code by lia. cbv zeta. rewrite in_int64 by lia. f_equal. lia.
Qed.
Lemma atoi_two : forall a b n, atoi (String a (String b "")) = Some n ->
  (exists d e, 0 <= d <= 9 /\ 0 <= e <= 9 /\ a = chr d /\ b = chr e /\ n = 10 * d + e) \/
  (exists e, 0 <= e <= 9 /\ (a = "+"%char \/ a = "-"%char) /\ b = chr e /\ n = if Ascii.eqb a "-" then - e else e).
Proof.
  intros a b n H. pose proof H as H0. unfold atoi in H. destruct (Ascii.eqb_spec a "-") as [Ea|Na].
  - right. cbn [String.eqb digitsVal] in H. destruct (isDigit b) eqn:D; [|discriminate]. apply isDigit_chr in D. destruct D as (e & E & ->).
    exists e. split; auto. split; auto. split; auto. rewrite (atoi_signed a e) in H0 by auto. injection H0 as <-.
    destruct (Ascii.eqb_spec a "-"); congruence.
  - destruct (Ascii.eqb_spec a "+") as [Ea|Nb].
    + right. cbn [String.eqb digitsVal] in H. destruct (isDigit b) eqn:D; [|discriminate]. apply isDigit_chr in D. destruct D as (e & E & ->).
      exists e. split; auto. split; auto. split; auto. rewrite (atoi_signed a e) in H0 by auto. injection H0 as <-.
      destruct (Ascii.eqb_spec a "-"); congruence.
    + left. cbn [String.eqb digitsVal] in H. destruct (isDigit a) eqn:D1; [|discriminate]. destruct (isDigit b) eqn:D2; [|discriminate].
      apply isDigit_chr in D1. destruct D1 as (d & D & ->). apply isDigit_chr in D2. destruct D2 as (e & E & ->).
      exists d, e. rewrite atoi_digits in H0 by auto. injection H0 as <-. auto.
Qed.
Lemma field_ok : forall a b hi n, hi <= 99 -> isInRange (String a (String b "")) 0 hi = Some n -> 0 <= n <= hi /\ signedToo n (String a (String b "")).
Proof.
  intros a b hi n L H. unfold isInRange in H. destruct (atoi (String a (String b ""))) as [k|] eqn:A; [|discriminate].
  destruct (Z.ltb_spec k 0) as [|K0]; [discriminate|]. destruct (Z.ltb_spec hi k) as [|K1]; [discriminate|]. cbn [orb] in H. injection H as <-.
  split; [lia|]. apply atoi_two in A. destruct A as [(d & e & D & E & -> & -> & ->)|(e & E & S & -> & Ek)].
  - left. now rewrite padded_two.
  - right. destruct S as [-> | ->].
    + left. change (Ascii.eqb "+" "-") with false in Ek. cbv iota in Ek. subst k. split; auto. rewrite padded_one by auto. reflexivity.
    + right. change (Ascii.eqb "-" "-") with true in Ek. cbv iota in Ek. assert (e = 0) by lia. subst. split; [reflexivity|]. reflexivity.
Qed.
Lemma field_made : forall x hi n, 0 <= n <= hi -> hi <= 99 -> signedToo n x -> exists a b, x = String a (String b "") /\ isInRange (String a (String b "")) 0 hi = Some n.
Proof.
  intros x hi n N L S. unfold isInRange.
  assert (R : (if (n <? 0) || (hi <? n) then None else Some n) = Some n).
  { destruct (Z.ltb_spec n 0); [lia|]. destruct (Z.ltb_spec hi n); [lia|]. reflexivity. }
  destruct S as [->|[[K ->]|[-> ->]]].
  - destruct (two_split n) as (d & e & D & E & ->); [lia|]. rewrite padded_two by auto. do 2 eexists. split; [reflexivity|]. rewrite atoi_digits by auto. exact R.
  - rewrite padded_one by auto. do 2 eexists. split; [reflexivity|]. rewrite atoi_signed by auto. exact R.
  - do 2 eexists. split; [reflexivity|]. change (String "0" "") with (String (chr 0) ""). rewrite atoi_signed by (auto; lia). exact R.
Qed.

(* ---------------------------------------------------------- zones *)
Lemma leap_iff : forall s hm, 0 <= hm <= 2878 ->
  ((if s =? 60 then (Z.quot hm 60 =? 23) && (Z.rem hm 60 =? 59) else true) = true <-> (s = 60 -> hm mod 1440 = 1439)).
Proof.
  intros s hm R. rewrite Z.quot_div_nonneg, Z.rem_mod_nonneg by lia. destruct (Z.eqb_spec s 60) as [->|N]; [|split; [intros; congruence|reflexivity]].
  rewrite andb_true_iff, !Z.eqb_eq. split.
  - intros [A B] _. Z.div_mod_to_equations; lia.
  - intros H. specialize (H eq_refl). Z.div_mod_to_equations; lia.
Qed.
Lemma zone_ok : forall h m s str, 0 <= h <= 23 -> 0 <= m <= 59 -> zoneOk h m s str = true ->
  exists o, offsetBy signedToo o str /\ (s = 60 -> (60 * h + m - o) mod 1440 = 1439).
Proof.
  intros h m s str Hh Hm H. unfold zoneOk in H. cbv zeta in H. destruct str as [|z r]; [discriminate|].
  destruct (Ascii.eqb z "z" || Ascii.eqb z "Z") eqn:EZ.
  - apply andb_prop in H. destruct H as [E H]. apply String.eqb_eq in E. subst r. exists 0. split.
    + left. split; auto. apply orb_prop in EZ. destruct EZ as [EZ|EZ]; apply Ascii.eqb_eq in EZ; subst z; auto.
    + intros ->. rewrite Z.eqb_refl in H. apply andb_prop in H. destruct H as [A B]. apply Z.eqb_eq in A. apply Z.eqb_eq in B. subst. reflexivity.
  - destruct r as [|a [|b [|c [|d [|e [|]]]]]]; try discriminate.
    destruct (Ascii.eqb_spec c ":") as [->|]; [|discriminate]. cbn [negb] in H.
    assert (G : forall sign, (sign = 1 \/ sign = -1) ->
      match isInRange (String a (String b "")) 0 23 with
      | None => false
      | Some zh => match isInRange (String d (String e "")) 0 59 with
        | None => false
        | Some zm =>
          if s =? 60 then (Z.quot (if h * 60 + m + sign * (zh * 60 + zm) <? 0 then h * 60 + m + sign * (zh * 60 + zm) + 24 * 60 else h * 60 + m + sign * (zh * 60 + zm)) 60 =? 23) &&
            (Z.rem (if h * 60 + m + sign * (zh * 60 + zm) <? 0 then h * 60 + m + sign * (zh * 60 + zm) + 24 * 60 else h * 60 + m + sign * (zh * 60 + zm)) 60 =? 59) else true
        end end = true ->
      exists zh zm, 0 <= zh <= 23 /\ 0 <= zm <= 59 /\ signedToo zh (String a (String b "")) /\ signedToo zm (String d (String e "")) /\
        (s = 60 -> (60 * h + m + sign * (60 * zh + zm)) mod 1440 = 1439)).
    { intros sign Sg G. destruct (isInRange (String a (String b "")) 0 23) as [zh|] eqn:A; [|discriminate].
      destruct (isInRange (String d (String e "")) 0 59) as [zm|] eqn:B; [|discriminate].
      apply field_ok in A; [|lia]. apply field_ok in B; [|lia]. exists zh, zm. split; [tauto|]. split; [tauto|]. split; [tauto|]. split; [tauto|].
      destruct (Z.ltb_spec (h * 60 + m + sign * (zh * 60 + zm)) 0) as [L|L].
      - match type of G with context [Z.quot ?x 60] => assert (RX : 0 <= x <= 2878) by (destruct Sg; subst; lia); pose proof (proj1 (leap_iff s x RX) G) as G2 end. clear G; rename G2 into G. intros E. specialize (G E). destruct Sg; subst sign; Z.div_mod_to_equations; lia.
      - match type of G with context [Z.quot ?x 60] => assert (RX : 0 <= x <= 2878) by (destruct Sg; subst; lia); pose proof (proj1 (leap_iff s x RX) G) as G2 end. clear G; rename G2 into G. intros E. specialize (G E). destruct Sg; subst sign; Z.div_mod_to_equations; lia. }
    destruct (Ascii.eqb_spec z "+") as [->|].
    + apply G in H; [|auto]. destruct H as (zh & zm & R1 & R2 & S1 & S2 & LP). exists (60 * zh + zm). split.
      * right. exists zh, zm, (String a (String b "")), (String d (String e "")). repeat (split; [assumption|]). left. split; reflexivity.
      * intros E. rewrite <- (LP E). f_equal; lia.
    + destruct (Ascii.eqb_spec z "-") as [->|]; [|discriminate].
      apply G in H; [|auto]. destruct H as (zh & zm & R1 & R2 & S1 & S2 & LP). exists (- (60 * zh + zm)). split.
      * right. exists zh, zm, (String a (String b "")), (String d (String e "")). repeat (split; [assumption|]). right. split; reflexivity.
      * intros E. rewrite <- (LP E). f_equal; lia.
Qed.
Lemma zone_made : forall h m s str o, 0 <= h <= 23 -> 0 <= m <= 59 -> offsetBy signedToo o str -> (s = 60 -> (60 * h + m - o) mod 1440 = 1439) ->
  zoneOk h m s str = true.
Proof.
  intros h m s str o Hh Hm O L.
  assert (LZ : o = 0 -> (if s =? 60 then (h =? 23) && (m =? 59) else true) = true).
  { intros ->. destruct (Z.eqb_spec s 60) as [->|]; [|reflexivity]. specialize (L eq_refl). apply andb_true_intro. split; apply Z.eqb_eq; Z.div_mod_to_equations; lia. }
  destruct O as [[E [-> | ->]]|(zh & zm & x & y & R1 & R2 & S1 & S2 & O)].
  - unfold zoneOk. cbv zeta. change (Ascii.eqb "Z" "z" || Ascii.eqb "Z" "Z") with true. cbv iota. cbn [String.eqb andb]. auto.
  - unfold zoneOk. cbv zeta. change (Ascii.eqb "z" "z" || Ascii.eqb "z" "Z") with true. cbv iota. cbn [String.eqb andb]. auto.
  - destruct (field_made x 23 zh) as (a & b & -> & A); auto; [lia|]. destruct (field_made y 59 zm) as (d & e & -> & B); auto; [lia|].
    destruct O as [[-> ->]|[-> ->]]; cbn [append]; unfold zoneOk; cbv zeta.
    + change (Ascii.eqb "+" "z" || Ascii.eqb "+" "Z") with false. change (Ascii.eqb ":" ":") with true. change (Ascii.eqb "+" "+") with true. cbn [negb].
      cbv iota. rewrite A, B. match goal with |- context [Z.quot ?x 60] => assert (Q : (s = 60 -> x mod 1440 = 1439) /\ 0 <= x <= 2878) end.
      { destruct (Z.ltb_spec (h * 60 + m + -1 * (zh * 60 + zm)) 0); split; try lia; intros E; specialize (L E); Z.div_mod_to_equations; lia. }
      apply (proj2 (leap_iff s _ (proj2 Q))); exact (proj1 Q).
    + change (Ascii.eqb "-" "z" || Ascii.eqb "-" "Z") with false. change (Ascii.eqb ":" ":") with true. change (Ascii.eqb "-" "+") with false. change (Ascii.eqb "-" "-") with true. cbn [negb].
      cbv iota. rewrite A, B. match goal with |- context [Z.quot ?x 60] => assert (Q : (s = 60 -> x mod 1440 = 1439) /\ 0 <= x <= 2878) end.
      { destruct (Z.ltb_spec (h * 60 + m + 1 * (zh * 60 + zm)) 0); split; try lia; intros E; specialize (L E); Z.div_mod_to_equations; lia. }
      apply (proj2 (leap_iff s _ (proj2 Q))); exact (proj1 Q).
Qed.
Lemma offset_starts : forall num o z, offsetBy num o z -> exists c r, z = String c r /\ byteIn "0" "9" c = false /\ c <> "."%char.
Proof.
  intros num o z [[_ [-> | ->]]|(h & m & x & y & _ & _ & _ & _ & [[_ ->]|[_ ->]])]; do 2 eexists; (split; [reflexivity|]); (split; [reflexivity|discriminate]).
Qed.

Lemma time_iff : forall str, isTime str = true <-> fullTimeBy signedToo str.
Proof.
  intros str. split; intros H.
  - unfold isTime in H. destruct str as [|h1 [|h2 [|c1 [|m1 [|m2 [|c2 [|s1 [|s2 rest]]]]]]]]; try discriminate.
    destruct (String.eqb_spec rest "") as [|NR]; [discriminate|]. destruct (Ascii.eqb_spec c1 ":") as [->|]; [|discriminate].
    destruct (Ascii.eqb_spec c2 ":") as [->|]; [|discriminate]. cbn [negb orb] in H.
    destruct (isInRange (String h1 (String h2 "")) 0 23) as [h|] eqn:A; [|discriminate].
    destruct (isInRange (String m1 (String m2 "")) 0 59) as [m|] eqn:B; [|discriminate].
    destruct (isInRange (String s1 (String s2 "")) 0 60) as [s|] eqn:C; [|discriminate].
    apply field_ok in A; [|lia]. apply field_ok in B; [|lia]. apply field_ok in C; [|lia].
    assert (G : forall frac zone, rest = frac ++ zone -> opt (lit "." ⋅ some digit) frac -> zoneOk h m s zone = true ->
      fullTimeBy signedToo (String h1 (String h2 (String ":" (String m1 (String m2 (String ":" (String s1 (String s2 rest))))))))).
    { intros frac zone -> OF Z. apply zone_ok in Z; [|tauto|tauto]. destruct Z as (o & O & LP).
      exists h, m, s, o, (String h1 (String h2 "")), (String m1 (String m2 "")), (String s1 (String s2 "")), frac, zone.
      repeat (split; [tauto|]). reflexivity. }
    destruct rest as [|c r]; [congruence|]. destruct (Ascii.eqb_spec c ".") as [->|N].
    + destruct (skipDigits_eq r) as (x & S & E & F & _). destruct (fst (skipDigits r)); [|discriminate].
      apply (G (String "." x) (snd (skipDigits r))); auto.
      * cbn [append]. rewrite <- E. reflexivity.
      * right. exists ".", x. split; [reflexivity|]. auto.
    + apply (G "" (String c r)); auto. left. reflexivity.
  - destruct H as (h & m & s & o & x & y & z & frac & zone & Hh & Hm & Hs & X & Y & Z & F & O & LP & ->).
    destruct (field_made x 23 h) as (h1 & h2 & -> & A); auto; [lia|].
    destruct (field_made y 59 m) as (m1 & m2 & -> & B); auto; [lia|].
    destruct (field_made z 60 s) as (s1 & s2 & -> & C); auto; [lia|].
    pose proof (zone_made h m s zone o Hh Hm O LP) as ZO. destruct (offset_starts _ _ _ O) as (c & r & EZ & D & ND).
    cbn [append]. unfold isTime. rewrite Ascii.eqb_refl. cbn [negb]. rewrite A, B, C. destruct F as [->|(p & ds & -> & DS & ->)].
    + cbn [append]. rewrite EZ. cbn [String.eqb orb]. destruct (Ascii.eqb_spec c "."); [congruence|]. rewrite <- EZ. exact ZO.
    + cbn [append String.eqb orb]. rewrite Ascii.eqb_refl.
      assert (SD : star digit ds) by (destruct DS as (a & b & DA & DB & ->); constructor; auto).
      destruct (skipDigits_star ds zone SD) as [Q1 Q2]. { intros c0 t E0. rewrite EZ in E0. injection E0 as <- <-. exact D. }
      rewrite Q1, Q2. destruct DS as (a & b & (ca & CA & ->) & DB & ->). exact ZO.
Qed.

(* ---------------------------------------------------------- dates *)
Lemma digitOf_chr : forall c d, digitOf c = Some d <-> 0 <= d <= 9 /\ c = chr d.
Proof.
  intros c d. unfold digitOf. split.
  - intros H. destruct (isDigit c) eqn:D; [|discriminate]. apply isDigit_chr in D. destruct D as (e & E & ->). rewrite chr_code in H by auto.
    injection H as <-. replace (48 + e - 48) with e by lia. auto.
  - intros [D ->]. replace (isDigit (chr d)) with true by (symmetry; apply isDigit_chr; eauto). rewrite chr_code by auto. f_equal. lia.
Qed.
Lemma goDaysIn_eq : forall m y, 1 <= m <= 12 -> goDaysIn m y = daysIn m y.
Proof.
  intros m y M. unfold goDaysIn, daysIn.
  assert (K : m = 1 \/ m = 2 \/ m = 3 \/ m = 4 \/ m = 5 \/ m = 6 \/ m = 7 \/ m = 8 \/ m = 9 \/ m = 10 \/ m = 11 \/ m = 12) by lia.
  repeat (destruct K as [-> |K]; [reflexivity|]). subst. reflexivity.
Qed.
Lemma date_iff : forall str, isDate str = true <-> fullDate str.
Proof.
  intros str. split; intros H.
  - unfold isDate in H. destruct str as [|y1 [|y2 [|y3 [|y4 [|c1 [|m1 [|m2 [|c2 [|d1 [|d2 [|]]]]]]]]]]]; try discriminate.
    apply andb_prop in H. destruct H as [H0 H]. apply andb_prop in H0. destruct H0 as [E1 E2]. apply Ascii.eqb_eq in E1. apply Ascii.eqb_eq in E2. subst.
    cbn [fixedDigits] in H.
    destruct (digitOf y1) eqn:Y1; [|discriminate]. destruct (digitOf y2) eqn:Y2; [|discriminate]. destruct (digitOf y3) eqn:Y3; [|discriminate]. destruct (digitOf y4) eqn:Y4; [|discriminate].
    destruct (digitOf m1) eqn:M1; [|discriminate]. destruct (digitOf m2) eqn:M2; [|discriminate]. destruct (digitOf d1) eqn:D1; [|discriminate]. destruct (digitOf d2) eqn:D2; [|discriminate].
    apply digitOf_chr in Y1, Y2, Y3, Y4, M1, M2, D1, D2.
    apply andb_prop in H. destruct H as [H H4]. apply andb_prop in H. destruct H as [H H3]. apply andb_prop in H. destruct H as [H1 H2].
    apply Z.leb_le in H1, H2, H3, H4. rewrite goDaysIn_eq in H4 by lia.
    destruct Y1 as [Y1 ->], Y2 as [Y2 ->], Y3 as [Y3 ->], Y4 as [Y4 ->], M1 as [M1 ->], M2 as [M2 ->], D1 as [D1 ->], D2 as [D2 ->].
    exists ((((0 * 10 + z) * 10 + z0) * 10 + z1) * 10 + z2), ((0 * 10 + z3) * 10 + z4), ((0 * 10 + z5) * 10 + z6).
    split; [lia|]. split; [lia|]. split; [lia|].
    replace ((((0 * 10 + z) * 10 + z0) * 10 + z1) * 10 + z2) with (1000 * z + 100 * z0 + 10 * z1 + z2) by lia.
    replace ((0 * 10 + z3) * 10 + z4) with (10 * z3 + z4) by lia. replace ((0 * 10 + z5) * 10 + z6) with (10 * z5 + z6) by lia.
    rewrite padded_four, !padded_two by auto. reflexivity.
  - destruct H as (y & m & d & Y & M & D & ->).
    assert (D31 : daysIn m y <= 31).
    { unfold daysIn. destruct (m =? 2); [destruct (_ && _); lia|]. destruct (_ || _); lia. }
    destruct (four_split y Y) as (a & b & c & e & A & B & C & E & EY). destruct (two_split m) as (m1 & m2 & M1 & M2 & EM); [lia|].
    destruct (two_split d) as (d1 & d2 & D1 & D2 & ED); [lia|].
    rewrite EY at 1. rewrite EM at 1. rewrite ED at 1. rewrite padded_four, !padded_two by auto. cbn [append]. unfold isDate. rewrite Ascii.eqb_refl. cbn [andb fixedDigits].
    rewrite (proj2 (digitOf_chr _ a)), (proj2 (digitOf_chr _ b)), (proj2 (digitOf_chr _ c)), (proj2 (digitOf_chr _ e)), (proj2 (digitOf_chr _ m1)),
      (proj2 (digitOf_chr _ m2)), (proj2 (digitOf_chr _ d1)), (proj2 (digitOf_chr _ d2)) by auto.
    replace ((((0 * 10 + a) * 10 + b) * 10 + c) * 10 + e) with y by lia. replace ((0 * 10 + m1) * 10 + m2) with m by lia. replace ((0 * 10 + d1) * 10 + d2) with d by lia.
    rewrite goDaysIn_eq by lia. repeat (apply andb_true_intro; split); apply Z.leb_le; lia.
Qed.
Lemma date_length : forall str, isDate str = true -> String.length str = 10%nat.
Proof. intros str H. unfold isDate in H. destruct str as [|y1 [|y2 [|y3 [|y4 [|c1 [|m1 [|m2 [|c2 [|d1 [|d2 [|]]]]]]]]]]]; try discriminate. reflexivity. Qed.
Lemma time_length : forall str, isTime str = true -> (9 <= String.length str)%nat.
Proof.
  intros str H. unfold isTime in H. destruct str as [|h1 [|h2 [|c1 [|m1 [|m2 [|c2 [|s1 [|s2 rest]]]]]]]]; try discriminate.
  destruct rest; [discriminate|]. cbn [String.length]. lia.
Qed.

(* ---------------------------------------------------------- dates with times *)
Lemma substring_all : forall y n, (String.length y <= n)%nat -> substring 0 n y = y.
Proof. induction y as [|c y IH]; intros [|n] L; cbn [String.length substring] in *; try lia; auto. f_equal. apply IH. lia. Qed.
Lemma substring_first : forall x y, substring 0 (String.length x) (x ++ y) = x.
Proof. induction x as [|c x IH]; intros y; cbn [String.length append substring]; [destruct y; reflexivity|]. f_equal. apply IH. Qed.
Lemma substring_skip : forall x y k n, substring (String.length x + k) n (x ++ y) = substring k n y.
Proof. induction x as [|c x IH]; intros y k n; [reflexivity|]. cbn [String.length append substring Nat.add]. apply IH. Qed.
Lemma get_skip : forall x y k, String.get (String.length x + k) (x ++ y) = String.get k y.
Proof. induction x as [|c x IH]; intros y k; [reflexivity|]. cbn [String.length append String.get Nat.add]. apply IH. Qed.
Lemma cut_length : forall n str, (n <= String.length str)%nat -> exists x y, str = x ++ y /\ String.length x = n.
Proof.
  induction n as [|n IH]; intros str L; [exists "", str; auto|]. destruct str as [|c str]; cbn [String.length] in L; [lia|].
  destruct (IH str) as (x & y & -> & E); [lia|]. exists (String c x), y. cbn. auto.
Qed.
Lemma dateTime_iff : forall str, isDateTime str = true <-> dateTimeBy signedToo str.
Proof.
  intros str. unfold isDateTime. split; intros H.
  - destruct (Nat.ltb_spec (String.length str) 20) as [|L]; [discriminate|]. destruct (cut_length 10 str) as (x & y & -> & E); [lia|].
    pose proof (get_skip x y 0) as G. rewrite E in G. change (10 + 0)%nat with 10%nat in G. rewrite G in H.
    destruct y as [|c y]; cbn [String.get] in H; [discriminate|].
    destruct (negb (Ascii.eqb c "T") && negb (Ascii.eqb c "t")) eqn:C; [discriminate|].
    apply andb_prop in H. destruct H as [D T]. rewrite <- E, substring_first in D.
    pose proof (substring_skip x (String c y) 1 (String.length (x ++ String c y))) as SK. rewrite E in SK. change (10 + 1)%nat with 11%nat in SK. rewrite SK in T.
    cbn [substring] in T. rewrite substring_all in T by (rewrite length_app; cbn [String.length]; lia).
    change (x ++ String c y) with (x ++ String c "" ++ y). rewrite <- append_assoc. apply cat_made; [apply cat_made|].
    + now apply date_iff.
    + destruct (Ascii.eqb_spec c "T") as [->|]; [left; reflexivity|]. destruct (Ascii.eqb_spec c "t") as [->|]; [right; reflexivity|discriminate].
    + now apply time_iff.
  - destruct H as (w & y & (x & t & X & T & ->) & Y & ->). apply date_iff in X. apply time_iff in Y. pose proof (date_length _ X) as E. pose proof (time_length _ Y) as L.
    assert (G : exists c, (c = "T"%char \/ c = "t"%char) /\ t = String c "") by (destruct T as [-> | ->]; eauto).
    destruct G as (c & C & ->). rewrite append_assoc. cbn [append].
    destruct (Nat.ltb_spec (String.length (x ++ String c y)) 20) as [S|_]; [rewrite length_app in S; cbn [String.length] in S; lia|].
    pose proof (get_skip x (String c y) 0) as G. rewrite E in G. change (10 + 0)%nat with 10%nat in G. rewrite G. cbn [String.get].
    pose proof (substring_skip x (String c y) 1 (String.length (x ++ String c y))) as SK. rewrite E in SK. change (10 + 1)%nat with 11%nat in SK. rewrite SK.
    cbn [substring]. rewrite (substring_all y) by (rewrite length_app; cbn [String.length]; lia).
    pose proof (substring_first x (String c y)) as SF. rewrite E in SF. rewrite SF, X, Y. destruct C as [-> | ->]; reflexivity.
Qed.

(* ---------------------------------------------------------- periods *)
Definition free (a : lang) : Prop := forall s, a s -> lacks "/" s.
Lemma free_cat : forall a b, free a -> free b -> free (cat a b).
Proof. intros a b A B s (x & y & X & Y & ->). apply lacks_app. auto. Qed.
Lemma free_alt : forall a b, free a -> free b -> free (alt a b).
Proof. intros a b A B s [X|X]; auto. Qed.
Lemma free_star : forall a, free a -> free (star a).
Proof. intros a A s H. induction H; [intros []|]. apply lacks_app. auto. Qed.
Lemma free_lit : forall x, lacks "/" x -> free (lit x).
Proof. intros x L s ->. exact L. Qed.
Lemma free_one : forall p, ~ p "/"%char -> free (one p).
Proof. intros p N s (c & C & ->) [E|[]]. subst c. auto. Qed.
Lemma free_digit : free digit.
Proof. apply free_one. intros [A B]. vm_compute in A, B. congruence. Qed.
Ltac freely := first [ apply free_cat; freely | apply free_alt; freely | apply free_star; freely | exact free_digit
                     | apply free_lit; let X := fresh in intros X; cbn in X; repeat destruct X as [X|X]; try discriminate X; try contradiction ].
Lemma free_counted : forall u, lacks "/" u -> free (counted u).
Proof. intros u L. unfold counted, some. apply free_cat; [freely|now apply free_lit]. Qed.
Lemma duration_free : free duration.
Proof.
  assert (forall c, c <> "/"%char -> free (counted (String c ""))) as U.
  { intros c N. apply free_counted. intros [E|[]]. congruence. }
  assert (free durDay) as FD by (apply U; discriminate). assert (free durSecond) as FS by (apply U; discriminate). assert (free durWeek) as FW by (apply U; discriminate).
  assert (forall u b, free (counted u) -> free b -> free (counted u ⋅ opt b)) as O.
  { intros u b A B. apply free_cat; auto. apply free_alt; auto. freely. }
  assert (free durMonth) as FM by (apply O; auto; apply U; discriminate). assert (free durYear) as FY by (apply O; auto; apply U; discriminate).
  assert (free durMinute) as FN by (apply O; auto; apply U; discriminate). assert (free durHour) as FH by (apply O; auto; apply U; discriminate).
  assert (free durTime) as FT. { apply free_cat; [freely|]. apply free_alt; auto. apply free_alt; auto. }
  apply free_cat; [freely|]. apply free_alt; auto. apply free_alt; auto. apply free_cat; [apply free_alt; auto; apply free_alt; auto|]. apply free_alt; auto. freely.
Qed.
Lemma chr_slash : forall d, 0 <= d <= 9 -> chr d <> "/"%char.
Proof. intros d D E. pose proof (chr_code d D) as C. rewrite E in C. change (Z.of_nat (nat_of_ascii "/")) with 47 in C. lia. Qed.
Lemma lacks_cons : forall c x, c <> "/"%char -> lacks "/" x -> lacks "/" (String c x).
Proof. intros c x N L [E|I]; [congruence|]. exact (L I). Qed.
Lemma lacks_nil : lacks "/" "".
Proof. intros []. Qed.
Lemma signed_free : forall n x, 0 <= n <= 99 -> signedToo n x -> lacks "/" x.
Proof.
  intros n x N [->|[[K ->]|[_ ->]]].
  - destruct (two_split n N) as (d & e & D & E & ->). rewrite padded_two by auto. apply lacks_cons; [now apply chr_slash|]. apply lacks_cons; [now apply chr_slash|apply lacks_nil].
  - rewrite padded_one by auto. cbn [append]. apply lacks_cons; [discriminate|]. apply lacks_cons; [now apply chr_slash|apply lacks_nil].
  - apply lacks_cons; [discriminate|]. apply lacks_cons; [discriminate|apply lacks_nil].
Qed.
Lemma fullTime_free : free (fullTimeBy signedToo).
Proof.
  intros s (h & m & sec & o & x & y & z & frac & zone & Hh & Hm & Hs & X & Y & Z & F & O & _ & ->).
  assert (LF : lacks "/" frac). { assert (FF : free (opt (lit "." ⋅ some digit))) by (unfold opt, some; freely). exact (FF _ F). }
  assert (LZ : lacks "/" zone).
  { destruct O as [[_ [-> | ->]]|(zh & zm & a & b & R1 & R2 & S1 & S2 & O)]; [apply lacks_cons; [discriminate|apply lacks_nil]|apply lacks_cons; [discriminate|apply lacks_nil]|].
    apply signed_free in S1; [|lia]. apply signed_free in S2; [|lia].
    destruct O as [[_ ->]|[_ ->]]; cbn [append]; apply lacks_cons; try discriminate; apply lacks_app; split; auto; cbn [append]; apply lacks_cons; try discriminate; auto. }
  apply signed_free in X; [|lia]. apply signed_free in Y; [|lia]. apply signed_free in Z; [|lia].
  apply lacks_app. split; auto. cbn [append]. apply lacks_cons; [discriminate|]. apply lacks_app. split; auto. cbn [append]. apply lacks_cons; [discriminate|].
  repeat (apply lacks_app; split; auto).
Qed.
Lemma date_free : free fullDate.
Proof.
  intros s (y & m & d & Y & M & D & ->).
  assert (D31 : daysIn m y <= 31).
  { unfold daysIn. destruct (m =? 2); [destruct (_ && _); lia|]. destruct (_ || _); lia. }
  destruct (four_split y Y) as (a & b & c & e & A & B & C & E & EY). destruct (two_split m) as (m1 & m2 & M1 & M2 & EM); [lia|].
  destruct (two_split d) as (d1 & d2 & D1 & D2 & ED); [lia|].
  rewrite EY, EM, ED, padded_four, !padded_two by auto. cbn [append].
  repeat (apply lacks_cons; [first [now apply chr_slash | discriminate]|]). apply lacks_nil.
Qed.
Lemma dateTime_free : free (dateTimeBy signedToo).
Proof. unfold dateTimeBy. apply free_cat; [apply free_cat; [exact date_free|freely]|exact fullTime_free]. Qed.
Lemma cutAt_ok : forall sep str a b, cutAt sep str = Some (a, b) -> str = a ++ String sep b.
Proof.
  intros sep. induction str as [|c r IH]; intros a b H; cbn [cutAt] in H; [discriminate|]. destruct (Ascii.eqb_spec c sep) as [->|].
  - injection H as <- <-. reflexivity.
  - destruct (cutAt sep r) as [[x y]|] eqn:E; [|discriminate]. injection H as <- <-. cbn [append]. rewrite (IH _ _ eq_refl). reflexivity.
Qed.
Lemma cutAt_made : forall sep a b, lacks sep a -> cutAt sep (a ++ String sep b) = Some (a, b).
Proof.
  intros sep a b. induction a as [|c a IH]; intros L; cbn [append cutAt].
  - rewrite Ascii.eqb_refl. reflexivity.
  - destruct (Ascii.eqb_spec c sep) as [->|]; [destruct L; left; reflexivity|]. rewrite IH; [reflexivity|]. intros I. apply L. right. exact I.
Qed.
Lemma duration_not_dateTime : forall s, duration s -> isDateTime s = false.
Proof.
  intros s (p & r & -> & _ & ->). destruct (isDateTime ("P" ++ r)) eqn:E; [|reflexivity]. exfalso. apply dateTime_iff in E.
  destruct E as (w & y & (x & t & X & T & ->) & Y & E). apply date_iff in X. unfold isDate in X.
  destruct x as [|y1 [|y2 [|y3 [|y4 [|c1 [|m1 [|m2 [|c2 [|d1 [|d2 [|]]]]]]]]]]]; try discriminate.
  cbn [append] in E. injection E as <- _. apply andb_prop in X. destruct X as [_ X]. discriminate.
Qed.
Lemma period_iff : forall str, isPeriod str = true <-> periodBy signedToo str.
Proof.
  intros str. unfold isPeriod. split; intros H.
  - destruct (cutAt "/" str) as [[a b]|] eqn:C; [|discriminate]. apply cutAt_ok in C. subst.
    change (a ++ String "/" b) with (a ++ "/" ++ b). rewrite <- append_assoc. destruct (isDateTime a) eqn:A.
    + apply dateTime_iff in A. apply orb_prop in H. destruct H as [H|H]; left; [left|right].
      * apply dateTime_iff in H. apply cat_made; [apply cat_made; [auto|reflexivity]|auto].
      * apply duration_iff in H. apply cat_made; [apply cat_made; [auto|reflexivity]|auto].
    + apply andb_prop in H. destruct H as [H1 H2]. apply duration_iff in H1. apply dateTime_iff in H2. right.
      apply cat_made; [apply cat_made; [auto|reflexivity]|auto].
  - destruct H as [[(w & b & (a & p & A & -> & ->) & B & ->)|(w & b & (a & p & A & -> & ->) & B & ->)]|(w & b & (a & p & A & -> & ->) & B & ->)]; rewrite append_assoc; cbn [append].
    + rewrite cutAt_made by (now apply dateTime_free). apply dateTime_iff in A. apply dateTime_iff in B. rewrite A, B. reflexivity.
    + rewrite cutAt_made by (now apply dateTime_free). apply dateTime_iff in A. apply duration_iff in B. rewrite A, B. apply orb_true_r.
    + rewrite cutAt_made by (now apply duration_free). rewrite (duration_not_dateTime _ A). apply duration_iff in A. apply dateTime_iff in B. rewrite A, B. reflexivity.
Qed.
