(* Facts about the validators of addresses and host names: each against its grammar *)
From Coq Require Import ZArith List String Ascii Bool Lia DecimalString.
From Verif Require Import Base Json RefPath RefProps Parse Formats SpecFormats FormatFacts FormatTimes.
Import ListNotations.
Open Scope string_scope.
Open Scope Z_scope.
Local Opaque Z.mul Z.add Z.div Z.modulo Z.quot Z.rem Z.pow.

(* ---------------------------------------------------------- numbers *)
Lemma digitsVal_all : forall s acc n, digitsVal acc s = Some n -> allDigits s = true.
Proof. induction s as [|c r IH]; intros acc n H; cbn [digitsVal allDigits] in *; [reflexivity|]. destruct (isDigit c); [|discriminate]. cbn [andb]. eauto. Qed.
Lemma digitsVal_le : forall s acc n, 0 <= acc -> digitsVal acc s = Some n -> acc <= n.
Proof.
  induction s as [|c r IH]; intros acc n A H; cbn [digitsVal] in H; [injection H as <-; lia|]. destruct (isDigit c) eqn:D; [|discriminate].
  apply isDigit_chr in D. destruct D as (d & D & ->). rewrite chr_code in H by auto. apply IH in H; lia.
Qed.
Lemma digits_uint : forall s, allDigits s = true -> exists u, s = NilEmpty.string_of_uint u.
Proof.
  induction s as [|c r IH]; intros A; [exists Decimal.Nil; reflexivity|]. cbn [allDigits] in A. apply andb_prop in A. destruct A as [D A].
  destruct (IH A) as (u & ->). apply isDigit_chr in D. destruct D as (d & D & ->).
  assert (K : d = 0 \/ d = 1 \/ d = 2 \/ d = 3 \/ d = 4 \/ d = 5 \/ d = 6 \/ d = 7 \/ d = 8 \/ d = 9) by lia.
  destruct K as [->|[->|[->|[->|[->|[->|[->|[->|[->| ->]]]]]]]]];
    [exists (Decimal.D0 u)|exists (Decimal.D1 u)|exists (Decimal.D2 u)|exists (Decimal.D3 u)|exists (Decimal.D4 u)
    |exists (Decimal.D5 u)|exists (Decimal.D6 u)|exists (Decimal.D7 u)|exists (Decimal.D8 u)|exists (Decimal.D9 u)]; reflexivity.
Qed.
Lemma itoa_of_uint : forall u, itoa (Z.of_N (Pos.of_uint u)) = NilEmpty.string_of_uint (Decimal.unorm u).
Proof. intros u. unfold itoa. pose proof (DecimalZ.to_of (Decimal.Pos u)) as E. change (Z.of_int (Decimal.Pos u)) with (Z.of_N (Pos.of_uint u)) in E. rewrite E. reflexivity. Qed.
Lemma digits_value : forall d v, d <> "" -> digitsVal 0 d = Some v -> exists z, star (lit "0") z /\ d = z ++ itoa v /\ (z <> "" -> String.get 0 d = Some "0"%char).
Proof.
  induction d as [|c r IH]; intros v N H; [congruence|]. pose proof (digitsVal_all _ _ _ H) as A. destruct (digits_uint _ A) as (u & E).
  destruct (Ascii.eqb_spec c "0") as [->|NC].
  - change (digitsVal 0 (String "0" r)) with (digitsVal 0 r) in H. destruct r as [|c2 r].
    + injection H as <-. exists "". split; [constructor|]. split; [reflexivity|congruence].
    + destruct (IH v) as (z & S & Ez & _); [discriminate|exact H|]. exists ("0" ++ z). split; [constructor; auto; reflexivity|]. split; [cbn [append]; rewrite Ez; reflexivity|reflexivity].
  - exists "". split; [constructor|]. split; [|congruence]. cbn [append]. rewrite E in H |- *. rewrite digitsVal_uint in H. injection H as <-. rewrite itoa_of_uint.
    f_equal. destruct u; cbn in E; try discriminate; injection E as E0 _; try (exfalso; apply NC; rewrite E0; reflexivity); reflexivity.
Qed.
Lemma zeros_value : forall z r, star (lit "0") z -> digitsVal 0 (z ++ r) = digitsVal 0 r.
Proof. intros z r H. induction H as [|a y -> _ IH]; [reflexivity|]. exact IH. Qed.
Lemma zero_zeros : forall d acc, 0 <= acc -> digitsVal acc d = Some 0 -> star (lit "0") d.
Proof.
  induction d as [|c r IH]; intros acc A H; [constructor|]. cbn [digitsVal] in H. destruct (isDigit c) eqn:D; [|discriminate].
  apply isDigit_chr in D. destruct D as (k & K & ->). rewrite chr_code in H by auto. assert (L : acc * 10 + (48 + k - 48) <= 0) by (eapply digitsVal_le; [|exact H]; lia).
  assert (k = 0) by lia. subst. change (String (chr 0) r) with ("0" ++ r). constructor; [reflexivity|]. eapply IH; [|exact H]. lia.
Qed.
Lemma nonzero_some : forall d, d <> "" -> star (lit "0") d -> some (lit "0") d.
Proof. intros d N H. destruct H as [|a y A S]; [congruence|]. exists a, y. auto. Qed.

Lemma group_ok : forall g, ipv4Group g = true -> looseOctet g.
Proof.
  intros g H. unfold ipv4Group in H. destruct (atoi g) as [n|] eqn:A; [|discriminate].
  destruct (Z.ltb_spec n 0) as [|N0]; [discriminate|]. destruct (Z.ltb_spec 255 n) as [|N1]; [discriminate|]. cbn [orb] in H.
  unfold atoi in A. destruct g as [|c r]; [discriminate|]. destruct (Ascii.eqb_spec c "-") as [->|Nm].
  - destruct (String.eqb_spec r "") as [|NE]; [discriminate|]. destruct (digitsVal 0 r) as [v|] eqn:V; [|discriminate]. cbv zeta in A.
    destruct (_ && _); [|discriminate]. injection A as <-. assert (L : 0 <= v) by (eapply digitsVal_le; [|exact V]; lia). assert (v = 0) by lia. subst v.
    right. right. right. exists r. split; [|reflexivity]. apply nonzero_some; auto. eapply zero_zeros; [|exact V]. lia.
  - destruct (Ascii.eqb_spec c "+") as [->|Np].
    + destruct (String.eqb_spec r "") as [|NE]; [discriminate|]. destruct (digitsVal 0 r) as [v|] eqn:V; [|discriminate]. cbv zeta in A.
      destruct (_ && _); [|discriminate]. injection A as <-. destruct (digits_value r v NE V) as (z & S & -> & _).
      right. right. left. exists v, z. repeat split; auto.
    + destruct (String.eqb_spec (String c r) "") as [|NE]; [discriminate|]. destruct (digitsVal 0 (String c r)) as [v|] eqn:V; [|discriminate]. cbv zeta in A.
      destruct (_ && _); [|discriminate]. injection A as <-. destruct (Z.eqb_spec v 0) as [->|NV].
      * right. left. apply nonzero_some; auto. eapply zero_zeros; [|exact V]. lia.
      * cbn [negb andb] in H. destruct (digits_value _ v NE V) as (z & S & E & F). destruct (String.eqb_spec z "") as [->|NZ].
        -- left. exists v. split; [lia|exact E].
        -- exfalso. rewrite (F NZ) in H. discriminate.
Qed.
Lemma octet_accepted : forallb (fun k => ipv4Group (itoa (Z.of_nat k))) (seq 0 256) = true.
Proof. vm_compute. reflexivity. Qed.
Lemma in64 : forall z, 0 <= z <= 255 -> (- 2 ^ 63 <=? z) && (z <? 2 ^ 63) = true.
Proof. intros z Z. change (2 ^ 63) with 9223372036854775808. apply andb_true_intro. split; [apply Z.leb_le|apply Z.ltb_lt]; lia. Qed.
Lemma group_made : forall g, looseOctet g -> ipv4Group g = true.
Proof.
  intros g [(n & N & ->)|[(a & y & -> & S & ->)|[(n & z & N & S & ->)|(z & (a & y & -> & S & ->) & ->)]]].
  - pose proof octet_accepted as F. rewrite forallb_forall in F. specialize (F (Z.to_nat n)). rewrite Z2Nat.id in F by lia. apply F. apply in_seq. lia.
  - assert (V : digitsVal 0 y = Some 0). { rewrite <- (append_nil y), zeros_value by exact S. reflexivity. }
    unfold ipv4Group. replace (atoi ("0" ++ y)) with (Some 0); [reflexivity|]. symmetry. unfold atoi. cbn [append].
    change (Ascii.eqb "0" "-") with false. change (Ascii.eqb "0" "+") with false. cbv iota. cbn [String.eqb].
    change (digitsVal 0 (String "0" y)) with (digitsVal 0 y). rewrite V. cbv zeta. rewrite in64 by lia. reflexivity.
  - destruct (itoa_nat (Z.to_nat n)) as (u & E & R & NE). rewrite Z2Nat.id in E, R by lia.
    assert (V : digitsVal 0 (z ++ itoa n) = Some n). { rewrite zeros_value by exact S. rewrite E, digitsVal_uint, R. reflexivity. }
    unfold ipv4Group. replace (atoi ("+" ++ z ++ itoa n)) with (Some n).
    + destruct (Z.ltb_spec n 0); [lia|]. destruct (Z.ltb_spec 255 n); [lia|]. cbn [orb append String.get isByte]. change (Ascii.eqb "+" "0") with false. rewrite andb_false_r. reflexivity.
    + symmetry. unfold atoi. cbn [append]. change (Ascii.eqb "+" "-") with false. change (Ascii.eqb "+" "+") with true. cbv iota.
      destruct (String.eqb_spec (z ++ itoa n) "") as [Q|_].
      * exfalso. destruct z; cbn [append] in Q; [rewrite E in Q; contradiction|discriminate].
      * rewrite V. cbv zeta. rewrite in64 by lia. reflexivity.
  - assert (V : digitsVal 0 y = Some 0). { rewrite <- (append_nil y), zeros_value by exact S. reflexivity. }
    unfold ipv4Group. replace (atoi ("-" ++ "0" ++ y)) with (Some 0); [reflexivity|]. symmetry. unfold atoi. cbn [append].
    change (Ascii.eqb "-" "-") with true. cbv iota. cbn [String.eqb]. change (digitsVal 0 (String "0" y)) with (digitsVal 0 y). rewrite V. cbv zeta.
    change (- 0) with 0. rewrite in64 by lia. reflexivity.
Qed.
Lemma digits_dot : forall s, allDigits s = true -> lacks "." s.
Proof.
  induction s as [|c r IH]; intros A I; [destruct I|]. cbn [allDigits] in A. apply andb_prop in A. destruct A as [A1 A2].
  destruct I as [E|I]; [subst c; discriminate|]. exact (IH A2 I).
Qed.
Lemma group_dot : forall g, ipv4Group g = true -> lacks "." g.
Proof.
  intros g H. unfold ipv4Group in H. destruct (atoi g) as [n|] eqn:A; [|discriminate]. clear H.
  unfold atoi in A. destruct g as [|c r]; [discriminate|]. destruct (Ascii.eqb_spec c "-") as [->|Nm].
  - destruct (String.eqb r ""); [discriminate|]. destruct (digitsVal 0 r) as [v|] eqn:V; [|discriminate]. apply digitsVal_all in V. apply digits_dot in V.
    intros [E|I]; [discriminate|exact (V I)].
  - destruct (Ascii.eqb_spec c "+") as [->|Np].
    + destruct (String.eqb r ""); [discriminate|]. destruct (digitsVal 0 r) as [v|] eqn:V; [|discriminate]. apply digitsVal_all in V. apply digits_dot in V.
      intros [E|I]; [discriminate|exact (V I)].
    + destruct (String.eqb (String c r) ""); [discriminate|]. destruct (digitsVal 0 (String c r)) as [v|] eqn:V; [|discriminate]. apply digitsVal_all in V. now apply digits_dot in V.
Qed.
Lemma ipv4_iff : forall str, isIPV4 str = true <-> dottedQuad looseOctet str.
Proof.
  intros str. unfold isIPV4. cbv zeta. split; intros H.
  - apply andb_prop in H. destruct H as [L F]. pose proof (splitOn_joined "." str) as J.
    destruct (splitOn "." str) as [|a [|b [|c [|d [|]]]]]; try discriminate. cbn [forallb] in F. rewrite !andb_true_iff in F.
    destruct F as (A & B & C & D & _). exists a, b, c, d. repeat (split; [now apply group_ok|]). symmetry. exact J.
  - destruct H as (a & b & c & d & A & B & C & D & ->). apply group_made in A, B, C, D.
    rewrite (splitOn_of_joined "." [a; b; c; d]); [|discriminate|].
    + cbn [List.length Nat.eqb forallb andb]. rewrite A, B, C, D. reflexivity.
    + repeat constructor; now apply group_dot.
Qed.

(* ---------------------------------------------------------- host names *)
Lemma hostChar_iff : forall c, hostChar c = true <-> alnum c \/ c = "-"%char.
Proof. intros c. unfold hostChar, alnum. rewrite !orb_true_iff, !byteIn_iff, Ascii.eqb_eq. tauto. Qed.
Lemma allChars_iff : forall s, allChars hostChar s = true <-> (forall i c, String.get i s = Some c -> alnum c \/ c = "-"%char).
Proof.
  induction s as [|c r IH]; cbn [allChars]; split; intros H.
  - intros [|i] c E; discriminate.
  - reflexivity.
  - apply andb_prop in H. destruct H as [H1 H2]. intros [|i] d E; cbn [String.get] in E.
    + injection E as <-. now apply hostChar_iff.
    + eapply IH; eauto.
  - apply andb_true_intro. split; [apply hostChar_iff; exact (H 0%nat c eq_refl)|]. apply IH. intros i d E. exact (H (S i) d E).
Qed.
Lemma isByte_iff : forall a o, isByte a o = true <-> o = Some a.
Proof. intros a [c|]; cbn [isByte]; [rewrite Ascii.eqb_eq|]; split; intros; congruence. Qed.
Definition labelOk (l : string) : bool :=
  (1 <=? String.length l)%nat && (String.length l <=? 63)%nat && negb (isByte "-" (lastByte l)) && allChars hostChar l.
Lemma labelOk_iff : forall l, labelOk l = true <-> looseLabel l.
Proof.
  intros l. unfold labelOk, looseLabel. rewrite !andb_true_iff, !Nat.leb_le, negb_true_iff, allChars_iff. fold (lastByte l).
  destruct (isByte "-" (lastByte l)) eqn:B.
  - apply isByte_iff in B. split; [intros [[_ X] _]; discriminate|]. intros (_ & _ & X). contradiction.
  - assert (lastByte l <> Some "-"%char) by (intros X; apply isByte_iff in X; congruence). tauto.
Qed.
Lemma label_loose : forall l, label l <-> looseLabel l /\ String.get 0 l <> Some "-"%char.
Proof. intros l. unfold label, looseLabel. tauto. Qed.
Lemma chars_dot : forall s, allChars hostChar s = true -> lacks "." s.
Proof.
  induction s as [|c r IH]; intros A I; [destruct I|]. cbn [allChars] in A. apply andb_prop in A. destruct A as [A1 A2].
  destruct I as [E|I]; [subst c; discriminate|]. exact (IH A2 I).
Qed.
Lemma label_dot : forall l, looseLabel l -> lacks "." l.
Proof. intros l (_ & C & _). apply chars_dot. now apply allChars_iff. Qed.
Lemma label_nonempty : forall l, looseLabel l -> l <> "".
Proof. intros l (L & _) ->. cbn in L. lia. Qed.
Lemma trimDot_add : forall x, trimDot (x ++ ".") = x.
Proof.
  induction x as [|c x IH]; [reflexivity|]. cbn [append trimDot]. destruct (x ++ ".") eqn:E; [destruct x; discriminate|]. rewrite IH. reflexivity.
Qed.
Lemma trimDot_eq : forall s, (s = trimDot s) \/ s = trimDot s ++ ".".
Proof.
  induction s as [|c r IH]; [auto|]. cbn [trimDot]. destruct r as [|c2 r].
  - destruct (Ascii.eqb_spec c ".") as [->|]; [right|left]; reflexivity.
  - destruct IH as [IH|IH]; [left|right]; cbn [append]; rewrite <- IH; reflexivity.
Qed.
Lemma trimDot_keep : forall s, (forall x, s <> x ++ ".") -> trimDot s = s.
Proof. intros s H. destruct (trimDot_eq s) as [E|E]; [auto|]. destruct (H _ E). Qed.
Lemma splitOn_last : forall x, exists l, l <> [] /\ splitOn "." (x ++ ".") = (l ++ [""])%list.
Proof.
  induction x as [|c x (l & NE & IH)]; [exists [""]; split; [discriminate|reflexivity]|]. cbn [append splitOn]. destruct (Ascii.eqb_spec c ".").
  - exists ("" :: l). split; [discriminate|]. rewrite IH. reflexivity.
  - rewrite IH. destruct l as [|h t]; [congruence|]. exists (String c h :: t). split; [discriminate|reflexivity].
Qed.
Lemma first_byte : forall sep l r, l <> "" -> String.get 0 (joined sep (l :: r)) = String.get 0 l.
Proof. intros sep [|c l] r N; [congruence|]. destruct r; reflexivity. Qed.
Lemma hostname_iff : forall str, isHostname str = true <-> looseHostname str.
Proof.
  intros str. unfold isHostname. cbv zeta. split; intros H.
  - destruct (Nat.ltb_spec 253 (String.length (trimDot str))) as [|L]; [discriminate|].
    pose proof (splitOn_joined "." (trimDot str)) as J. destruct (splitOn "." (trimDot str)) as [|first labels] eqn:E; [destruct (splitOn_some _ _ E)|].
    rewrite forallb_forall in H.
    assert (F : forall l, In l (first :: labels) -> looseLabel l /\ String.get 0 (trimDot str) <> Some "-"%char).
    { intros l I. specialize (H l I). rewrite !andb_true_iff in H. destruct H as ((((A & B) & C) & D) & G). split.
      - apply labelOk_iff. unfold labelOk. rewrite A, B, D, G. reflexivity.
      - intros X. rewrite X in C. discriminate. }
    exists first, labels. split; [|split; [|split]].
    + apply label_loose. destruct (F first (or_introl eq_refl)) as [F1 F2]. split; auto. rewrite <- J, first_byte in F2; auto. now apply label_nonempty.
    + apply Forall_forall. intros l I. apply F. right. exact I.
    + change (String "." "") with "." in J. rewrite J. exact L.
    + change (String "." "") with "." in J. rewrite J. apply trimDot_eq.
  - destruct H as (first & labels & HF & HL & L & E). apply label_loose in HF. destruct HF as [HF H0].
    assert (ALL : Forall looseLabel (first :: labels)) by (constructor; auto).
    assert (S : splitOn "." (joined "." (first :: labels)) = first :: labels).
    { apply (splitOn_of_joined "."); [discriminate|]. eapply Forall_impl; [|exact ALL]. exact label_dot. }
    assert (T : trimDot str = joined "." (first :: labels)).
    { destruct E as [->| ->]; [|apply trimDot_add]. apply trimDot_keep. intros x X. destruct (splitOn_last x) as (l & _ & Q).
      rewrite <- X, S in Q. rewrite Q in ALL. apply Forall_app in ALL. destruct ALL as [_ ALL]. inversion ALL; subst. now apply (label_nonempty "" H2). }
    rewrite T. destruct (Nat.ltb_spec 253 (String.length (joined "." (first :: labels)))); [lia|]. rewrite S. apply forallb_forall. intros l I.
    rewrite Forall_forall in ALL. pose proof (proj2 (labelOk_iff l) (ALL l I)) as K. unfold labelOk in K. rewrite !andb_true_iff in K.
    destruct K as (((A & B) & D) & G). rewrite A, B, D, G, first_byte by (now apply label_nonempty).
    destruct (isByte "-" (String.get 0 first)) eqn:Q; [|reflexivity]. apply isByte_iff in Q. contradiction.
Qed.
