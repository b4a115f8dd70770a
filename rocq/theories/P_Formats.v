(* C46, C54: the validators of string formats *)
From Coq Require Import ZArith List String Ascii Bool Lia.
From Verif Require Import Base Float64 Json Schema Util Options Number Gen GenInv GenValues PState RefPath Merge NotMerge Parse.
From Verif Require Import SpecSchema SpecRun MergeProps ParseShape ValueProps ValueTypes ValueDemo RefProps.
From Verif Require Import Formats SpecFormats FormatFacts FormatTimes FormatNames.
From Verif Require Import GenFacts.
From Verif Require Sound.
Import ListNotations.
Open Scope string_scope.
Open Scope Z_scope.

(* ---------------------------------------------------------- C46: exact grammars *)
(* the strings accepted are exactly those of the grammar, whatever net, net/url and the others answer *)
Theorem C46_uuid : forall L s, validFormat L "uuid" (JStr s) = true <-> uuid s.
Proof. intros L s. exact (uuid_iff s). Qed.
Print Assumptions C46_uuid.
Theorem C46_json_pointer : forall L s, validFormat L "json-pointer" (JStr s) = true <-> jsonPointer s.
Proof. intros L s. exact (pointer_iff s). Qed.
Print Assumptions C46_json_pointer.
Theorem C46_relative_json_pointer : forall L s, validFormat L "relative-json-pointer" (JStr s) = true <-> relativePointer s.
Proof. intros L s. exact (relative_iff s). Qed.
Print Assumptions C46_relative_json_pointer.
Theorem C46_duration : forall L s, validFormat L "duration" (JStr s) = true <-> duration s.
Proof. intros L s. exact (duration_iff s). Qed.
Print Assumptions C46_duration.

(* the grammars are neither empty nor full *)
Example C46_case : uuid "123e4567-e89b-12D3-a456-426614174000" /\ ~ uuid "123e4567-e89b-12D3-a456-42661417400" /\
  jsonPointer "/a~1b//~0" /\ ~ jsonPointer "/a~2" /\ ~ jsonPointer "a" /\
  relativePointer "12/a" /\ relativePointer "0#" /\ ~ relativePointer "01" /\ ~ relativePointer "-1" /\
  duration "P1Y2M3DT4H5M6S" /\ duration "P2W" /\ duration "PT5M" /\ ~ duration "P" /\ ~ duration "P1D2M" /\ ~ duration "P1YT".
Proof.
  rewrite <- !uuid_iff, <- !pointer_iff, <- !relative_iff, <- !duration_iff. vm_compute. repeat split; intros H; discriminate H.
Qed.

(* ---------------------------------------------------------- C46: grammars that are exceeded *)
(* times: everything in the grammar is accepted, and what is accepted differs from the grammar only in that a field
   may be a sign and one digit.  Missing: rejecting those *)
Lemma times_by : forall num num' : Z -> lang, (forall n x, 0 <= n <= 99 -> num n x -> num' n x) -> forall s, fullTimeBy num s -> fullTimeBy num' s.
Proof.
  intros num num' N s (h & m & sec & o & x & y & z & frac & zone & Hh & Hm & Hs & X & Y & Z & F & O & LP & ->).
  exists h, m, sec, o, x, y, z, frac, zone. repeat (split; [first [assumption | apply N; [lia|assumption]]|]). split; [|auto].
  destruct O as [O|(zh & zm & a & b & R1 & R2 & S1 & S2 & O)]; [left; exact O|right]. exists zh, zm, a, b. split; [exact R1|]. split; [exact R2|]. split; [apply N; [lia|auto]|]. split; [apply N; [lia|auto]|exact O].
Qed.
Theorem C46_time_partial : forall L s,
  (fullTime s -> validFormat L "time" (JStr s) = true) /\
  (validFormat L "time" (JStr s) = true <-> fullTimeBy signedToo s).
Proof.
  intros L s. split; [|exact (time_iff s)]. intros H. apply time_iff. revert s H. apply times_by. intros n x _ H. left. exact H.
Qed.
Print Assumptions C46_time_partial.
Lemma digits_only : forall h x, twoDigits h x -> 0 <= h <= 99 -> exists d e, 0 <= d <= 9 /\ 0 <= e <= 9 /\ x = String (chr d) (String (chr e) "").
Proof. intros h x -> H. destruct (two_split h H) as (d & e & D & E & ->). exists d, e. rewrite padded_two by auto. auto. Qed.
(* "+1:00:00Z" is not a time *)
Theorem C46_time_refuted : forall L, ~ (forall s, validFormat L "time" (JStr s) = true <-> fullTime s).
Proof.
  intros L H. destruct (H "+1:00:00Z") as [A _]. specialize (A eq_refl).
  destruct A as (h & m & sec & o & x & y & z & frac & zone & Hh & Hm & Hs & X & _ & _ & _ & _ & _ & E).
  apply digits_only in X; [|lia]. destruct X as (d & e & D & _ & ->). cbn [append] in E. injection E as E _.
  pose proof (chr_code d D) as C. rewrite <- E in C. change (Z.of_nat (nat_of_ascii "+")) with 43 in C. lia.
Qed.
Print Assumptions C46_time_refuted.
Lemma padded_in : forall n x, x = padded 2 n -> twoDigits n x. Proof. auto. Qed.
Example C46_time_case : fullTime "23:59:60Z" /\ fullTime "01:29:60.25+01:30" /\ ~ fullTime "22:59:60Z" /\ ~ fullTime "24:00:00Z".
Proof.
  split; [|split; [|split]].
  - exists 23, 59, 60, 0, "23", "59", "60", "", "Z". repeat (split; [first [lia | reflexivity | left; reflexivity]|]). split; [left; auto|]. split; reflexivity.
  - exists 1, 29, 60, 90, "01", "29", "60", ".25", "+01:30". repeat (split; [first [lia | reflexivity]|]). split.
    + right. exists ".", "25". split; [reflexivity|]. split; [|reflexivity]. exists "2", "5". split; [exists "2"%char; split; [vm_compute; split; discriminate|reflexivity]|]. split; [|reflexivity].
      change "5" with ("5" ++ ""). constructor; [|constructor]. exists "5"%char. split; [vm_compute; split; discriminate|reflexivity].
    + split; [|split; reflexivity]. right. exists 1, 30, "01", "30". repeat (split; [first [lia | reflexivity]|]). left. split; reflexivity.
  - intros H. apply (proj1 (C46_time_partial (mkNetlib (fun _ => true) (fun _ => true) (fun _ => None) (fun _ => true)) _)) in H. discriminate.
  - intros H. apply (proj1 (C46_time_partial (mkNetlib (fun _ => true) (fun _ => true) (fun _ => None) (fun _ => true)) _)) in H. discriminate.
Qed.

(* dotted quads: everything in the grammar is accepted, and beyond it only several zeros or a sign before the digits *)
Theorem C46_ipv4_partial : forall L f s, f = "ipv4" \/ f = "ip-address" ->
  (ipv4 s -> validFormat L f (JStr s) = true) /\
  (validFormat L f (JStr s) = true <-> dottedQuad looseOctet s).
Proof.
  intros L f s F. assert (E : validFormat L f (JStr s) = isIPV4 s) by (destruct F as [-> | ->]; reflexivity). rewrite E.
  split; [|exact (ipv4_iff s)]. intros (a & b & c & d & A & B & C & D & ->). apply ipv4_iff. exists a, b, c, d.
  repeat (split; [left; assumption|]). reflexivity.
Qed.
Print Assumptions C46_ipv4_partial.
Lemma octet_head : forall s, octet s -> exists k, (k < 256)%nat /\ s = itoa (Z.of_nat k).
Proof. intros s (n & N & ->). exists (Z.to_nat n). split; [lia|]. rewrite Z2Nat.id by lia. reflexivity. Qed.
Lemma octet_text : forall x, existsb (String.eqb x) (map (fun k => itoa (Z.of_nat k)) (seq 0 256)) = false -> ~ octet x.
Proof.
  intros x H O. apply octet_head in O. destruct O as (k & K & ->). apply not_true_iff_false in H. apply H. apply existsb_exists.
  exists (itoa (Z.of_nat k)). split; [|apply String.eqb_refl]. apply in_map_iff. exists k. split; [reflexivity|]. apply in_seq. lia.
Qed.
Lemma quad_groups : forall s a b c d, splitOn "." s = [a; b; c; d] -> ipv4 s -> octet a.
Proof.
  intros s a b c d E (x & y & z & w & X & Y & Z & W & ->).
  assert (K : forall g, octet g -> lacks "." g). { intros g G. apply group_dot. apply group_made. left. exact G. }
  rewrite (splitOn_of_joined "." [x; y; z; w]) in E; [|discriminate|repeat constructor; auto]. injection E as <- <- <- <-. exact X.
Qed.
(* "+1.2.3.4" and "00.0.0.0" are not dotted quads *)
Theorem C46_ipv4_refuted : forall L, validFormat L "ipv4" (JStr "+1.2.3.4") = true /\ validFormat L "ipv4" (JStr "00.0.0.0") = true /\
  ~ ipv4 "+1.2.3.4" /\ ~ ipv4 "00.0.0.0".
Proof.
  intros L. split; [reflexivity|]. split; [reflexivity|]. split; intros H; eapply quad_groups in H; try (vm_compute; reflexivity); revert H; apply octet_text; vm_compute; reflexivity.
Qed.
Print Assumptions C46_ipv4_refuted.
Example C46_ipv4_case : ipv4 "192.168.0.255" /\ ~ dottedQuad looseOctet "1.2.3.256" /\ ~ dottedQuad looseOctet "01.2.3.4" /\ ~ dottedQuad looseOctet "1.2.3".
Proof.
  split. { exists "192", "168", "0", "255". split; [exists 192; split; [lia|reflexivity]|]. split; [exists 168; split; [lia|reflexivity]|].
    split; [exists 0; split; [lia|reflexivity]|]. split; [exists 255; split; [lia|reflexivity]|]. reflexivity. }
  rewrite <- !ipv4_iff. vm_compute. repeat split; intros H; discriminate H.
Qed.

(* host names: everything in the grammar is accepted, and beyond it only hyphens at the start of later labels *)
Theorem C46_hostname_partial : forall L s,
  (hostname s -> validFormat L "hostname" (JStr s) = true) /\
  (validFormat L "hostname" (JStr s) = true <-> looseHostname s).
Proof.
  intros L s. split; [|exact (hostname_iff s)]. intros (labels & N & F & LN & E). apply hostname_iff. destruct labels as [|first labels]; [congruence|].
  inversion F; subst. exists first, labels. split; [auto|]. split; [|auto]. eapply Forall_impl; [|eassumption]. intros l K. apply label_loose in K. tauto.
Qed.
Print Assumptions C46_hostname_partial.
Theorem C46_hostname_refuted : forall L, validFormat L "hostname" (JStr "a.-b") = true /\ ~ hostname "a.-b".
Proof.
  intros L. split; [reflexivity|]. intros (labels & N & F & _ & E).
  assert (FL : Forall (lacks ".") labels). { eapply Forall_impl; [|exact F]. intros l K. apply label_dot. apply label_loose in K. tauto. }
  pose proof (splitOn_of_joined "." labels N FL) as S. change (String "." "") with "." in S.
  destruct E as [E|E].
  - rewrite <- E in S. cbn in S. subst labels. inversion F; subst. inversion H2; subst. destruct H3 as (_ & _ & K & _). apply K. reflexivity.
  - pose proof (trimDot_add (joined "." labels)) as T. rewrite <- E in T. rewrite <- T in S. vm_compute in S. subst labels.
    inversion F; subst. inversion H2; subst. destruct H3 as (_ & _ & K & _). apply K. reflexivity.
Qed.
Print Assumptions C46_hostname_refuted.
Example C46_hostname_case : hostname "www.Example-1.com." /\ ~ looseHostname "-a.b" /\ ~ looseHostname "a-.b" /\ ~ looseHostname "a..b" /\ ~ looseHostname "a_b".
Proof.
  split.
  - exists ["www"; "Example-1"; "com"]. split; [discriminate|]. split; [|split; [apply Nat.leb_le; reflexivity|right; reflexivity]].
    assert (K : forall l, labelOk l && negb (isByte "-" (String.get 0 l)) = true -> label l).
    { intros l K. apply andb_prop in K. destruct K as [K1 K2]. apply label_loose. split; [now apply labelOk_iff|]. intros X. rewrite X in K2. discriminate. }
    constructor; [apply K; reflexivity|]. constructor; [apply K; reflexivity|]. constructor; [apply K; reflexivity|]. constructor.
  - rewrite <- !hostname_iff. vm_compute. repeat split; intros H; discriminate H.
Qed.

(* ---------------------------------------------------------- C46: generated durations and times are accepted *)
(* what the clock of the generator writes: 24 hours, no leap seconds, years of four digits *)
Definition clockText (f str : string) : Prop :=
  exists y mo d h m s, 0 <= y <= 9999 /\ 1 <= mo <= 12 /\ 1 <= d <= daysIn mo y /\ 0 <= h <= 23 /\ 0 <= m <= 59 /\ 0 <= s <= 59 /\
  let date := padded 4 y ++ "-" ++ padded 2 mo ++ "-" ++ padded 2 d in
  let time := padded 2 h ++ ":" ++ padded 2 m ++ ":" ++ padded 2 s in
  (f = "date" -> str = date) /\ (f = "time" -> str = time ++ "+00:00") /\
  (f = "date-time" -> str = date ++ "T" ++ time ++ "Z" \/
     exists zh zm sign, 0 <= zh <= 23 /\ 0 <= zm <= 59 /\ (sign = "+" \/ sign = "-") /\ str = date ++ "T" ++ time ++ sign ++ padded 2 zh ++ ":" ++ padded 2 zm).
Lemma clock_time : forall h m s zone o, 0 <= h <= 23 -> 0 <= m <= 59 -> 0 <= s <= 59 -> offsetBy twoDigits o zone ->
  isTime (padded 2 h ++ ":" ++ padded 2 m ++ ":" ++ padded 2 s ++ zone) = true.
Proof.
  intros h m s zone o H M S Z. apply time_iff. apply (times_by twoDigits); [intros n x _ X; left; exact X|].
  exists h, m, s, o, (padded 2 h), (padded 2 m), (padded 2 s), "", zone. split; [auto|]. split; [auto|]. split; [lia|].
  repeat (split; [reflexivity|]). split; [left; reflexivity|]. split; [exact Z|]. split; [intros; lia|reflexivity].
Qed.
Lemma duration_days : forall k, 0 <= k -> isDuration ("P" ++ itoa k ++ "D") = true.
Proof.
  intros k K. apply duration_iff. exists "P", (itoa k ++ "D"). split; [reflexivity|]. split; [|reflexivity]. left. left.
  exists (itoa k ++ "D"), "". split; [|split; [left; reflexivity|now rewrite append_nil]]. left. left. exists (itoa k), "D". split; [|split; reflexivity].
  destruct (itoa_nat (Z.to_nat k)) as (u & E & _ & NE). rewrite Z2Nat.id in E by lia. rewrite E.
  pose proof (allDigits_uint u) as A. revert A NE. generalize (DecimalString.NilEmpty.string_of_uint u). clear.
  assert (ST : forall s, allDigits s = true -> star digit s).
  { induction s as [|c r IH]; intros A; [constructor|]. cbn [allDigits] in A. apply andb_prop in A. destruct A as [D A].
    change (String c r) with (String c "" ++ r). constructor; auto. exists c. split; auto. apply byteIn_iff. exact D. }
  intros [|c r] A NE; [congruence|]. cbn [allDigits] in A. apply andb_prop in A. destruct A as [D A].
  change (String c r) with (String c "" ++ r). apply cat_made; auto. exists c. split; auto. apply byteIn_iff. exact D.
Qed.
Theorem C46_generated_accepted : forall L PE GE n g st v st' f, plain n -> ofType "string" n -> sFormat n = Some f ->
  In f ["duration"; "time"; "date"; "date-time"] -> (forall d, clockText f (eFormat GE f d)) ->
  accepted PE n g -> yields GE g st v st' -> validFormat L f v = true.
Proof.
  intros L PE GE n g st v st' f HP HT EF HF HC HA HY. apply (accepted_typed PE n g "string") in HA; auto; [|discriminate].
  destruct HA as (k & s & s' & H). unfold parseType in H. cbn [String.eqb Ascii.eqb Bool.eqb] in H. apply parseString_shape in H. destruct H as (-> & _).
  apply yields_step in HY. destruct HY as (j & HY). cbn [genStep] in HY. rewrite EF in HY. cbn [get_or] in HY. unfold genString in HY.
  assert (NF : String.eqb f "" = false) by (cbn [In] in HF; destruct HF as [<-|[<-|[<-|[<-|[]]]]]; reflexivity). rewrite NF in HY. cbn [negb] in HY.
  apply bindM_ok in HY. destruct HY as (u & s0 & _ & HY). apply Sound.format_made in HY. destruct HY as (str & -> & HY).
  assert (VD : In f fakerFormats -> (exists d, str = eFormat GE f d) -> validFormat L f (JStr str) = true).
  { intros I (d & ->). destruct (HC d) as (y & mo & dd & h & m & sc & Y & MO & D & HH & M & S & Q1 & Q2 & Q3).
    assert (DD : isDate (padded 4 y ++ "-" ++ padded 2 mo ++ "-" ++ padded 2 dd) = true) by (apply date_iff; exists y, mo, dd; auto).
    assert (DT : forall zone o, offsetBy twoDigits o zone ->
      isDateTime ((padded 4 y ++ "-" ++ padded 2 mo ++ "-" ++ padded 2 dd) ++ "T" ++ padded 2 h ++ ":" ++ padded 2 m ++ ":" ++ padded 2 sc ++ zone) = true).
    { intros zone o Z. apply dateTime_iff. rewrite <- append_assoc. apply cat_made; [apply cat_made; [now apply date_iff|left; reflexivity]|].
      apply time_iff. eapply clock_time; eauto. }
    cbn [In] in HF. destruct HF as [<-|[<-|[<-|[<-|[]]]]].
    - exfalso. cbn in I. intuition discriminate.
    - rewrite (Q2 eq_refl). change (validFormat L "time" (JStr ?x)) with (isTime x). rewrite !append_assoc.
      apply (clock_time _ _ _ "+00:00" 0); auto. right. exists 0, 0, "00", "00". repeat (split; [first [lia | reflexivity]|]). left. split; reflexivity.
    - rewrite (Q1 eq_refl). exact DD.
    - destruct (Q3 eq_refl) as [->|(zh & zm & sg & ZH & ZM & SG & ->)].
      + change (validFormat L "date-time" (JStr ?x)) with (isDateTime x). rewrite (append_assoc (padded 2 h)), (append_assoc ":"), (append_assoc (padded 2 m)), (append_assoc ":"). apply (DT "Z" 0). left. auto.
      + change (validFormat L "date-time" (JStr ?x)) with (isDateTime x). rewrite (append_assoc (padded 2 h)), (append_assoc ":"), (append_assoc (padded 2 m)), (append_assoc ":").
        destruct SG as [-> | ->].
        * apply (DT ("+" ++ padded 2 zh ++ ":" ++ padded 2 zm) (60 * zh + zm)). right. exists zh, zm, (padded 2 zh), (padded 2 zm). repeat (split; [first [lia | reflexivity]|]). left. split; reflexivity.
        * apply (DT ("-" ++ padded 2 zh ++ ":" ++ padded 2 zm) (- (60 * zh + zm))). right. exists zh, zm, (padded 2 zh), (padded 2 zm). repeat (split; [first [lia | reflexivity]|]). right. split; reflexivity. }
  destruct HY as [[-> (k0 & K & ->)]|[[I E]|[N1 N2]]].
  - exact (duration_days k0 (proj1 K)).
  - exact (VD I E).
  - exfalso. cbn [In] in HF. destruct HF as [<-|[<-|[<-|[<-|[]]]]]; [congruence|apply N2; cbn; tauto|apply N2; cbn; tauto|apply N2; cbn; tauto].
Qed.
Print Assumptions C46_generated_accepted.

Definition clocked : env :=
  let D := drawing 3 0 in
  mkEnv (eOpts D) (eRefs D) (eRand D) (eGlob D) (eSentence D)
    (fun f _ => if String.eqb f "time" then "12:34:56+00:00" else if String.eqb f "date" then "2024-02-29" else "2024-02-29T12:34:56-05:30")
    (eRegen D) (eValid D) (eMatch D) (eIsFormat D).
Example C46_generated_case : forall f, In f ["duration"; "time"; "date"; "date-time"] ->
  let n := typed "string" (set_sFormat (Some f) emptyNode) in
  plain n /\ ofType "string" n /\ sFormat n = Some f /\ (forall d, clockText f (eFormat clocked f d)) /\
  exists str, gives clocked n (JStr str) [] /\ In str ["P3D"; "12:34:56+00:00"; "2024-02-29"; "2024-02-29T12:34:56-05:30"].
Proof.
  intros f I. cbv zeta.
  assert (C : forall d, clockText f (eFormat clocked f d)).
  { intros d. exists 2024, 2, 29, 12, 34, 56. do 6 (split; [vm_compute; split; discriminate|]). cbv zeta. split; [intros ->; reflexivity|]. split; [intros ->; reflexivity|].
    intros ->. right. exists 5, 30, "-". split; [lia|]. split; [lia|]. split; [auto|]. reflexivity. }
  assert (P : forall f, plain (typed "string" (set_sFormat (Some f) emptyNode))) by (intros; constructor; reflexivity).
  split; [apply P|]. split; [reflexivity|]. split; [reflexivity|]. split; [exact C|].
  cbn [In] in I. destruct I as [<-|[<-|[<-|[<-|[]]]]]; eexists; (split; [demo|]); cbn; tauto.
Qed.

(* the text written for the formats the generator knows but does not support is never of that format *)
Theorem C46_placeholder_refuted : forall L PE GE n g st v st' f, plain n -> ofType "string" n -> sFormat n = Some f ->
  f = "json-pointer" \/ f = "relative-json-pointer" -> accepted PE n g -> yields GE g st v st' -> validFormat L f v = false.
Proof.
  intros L PE GE n g st v st' f HP HT EF HF HA HY. apply (accepted_typed PE n g "string") in HA; auto; [|discriminate].
  destruct HA as (k & s & s' & H). unfold parseType in H. cbn [String.eqb Ascii.eqb Bool.eqb] in H. apply parseString_shape in H. destruct H as (-> & _).
  apply yields_step in HY. destruct HY as (j & HY). cbn [genStep] in HY. rewrite EF in HY. cbn [get_or] in HY. unfold genString, generateFormat in HY.
  destruct HF as [-> | ->]; cbn [String.eqb Ascii.eqb Bool.eqb negb mem_string fakerFormats knownUnsupportedFormats existsb] in HY;
    apply bindM_ok in HY; destruct HY as (u & s0 & _ & HY); apply bindM_ok in HY; destruct HY as (u2 & s2 & _ & HY); apply ret_ok in HY; destruct HY as [-> _]; reflexivity.
Qed.
Print Assumptions C46_placeholder_refuted.
Example C46_placeholder_case : let n := typed "string" (set_sFormat (Some "json-pointer") emptyNode) in
  plain n /\ ofType "string" n /\ gives (drawing 3 0) n (JStr "Known but unsupported format: json-pointer") [EvBadFormat "json-pointer"].
Proof. cbv zeta. split; [constructor; reflexivity|]. split; [reflexivity|]. demo. Qed.

(* ---------------------------------------------------------- C54: dates, dates with times, periods *)
Theorem C54_date : forall L s, validFormat L "date" (JStr s) = true <-> fullDate s.
Proof. intros L s. exact (date_iff s). Qed.
Print Assumptions C54_date.
(* Missing for the other two: rejecting fields made of a sign and one digit *)
Theorem C54_date_time_partial : forall L s,
  (dateTime s -> validFormat L "date-time" (JStr s) = true) /\
  (validFormat L "date-time" (JStr s) = true <-> dateTimeBy signedToo s).
Proof.
  intros L s. split; [|exact (dateTime_iff s)]. intros (w & y & W & Y & ->). apply dateTime_iff. apply cat_made; [exact W|].
  eapply times_by; [|exact Y]. intros n x _ X. left. exact X.
Qed.
Print Assumptions C54_date_time_partial.
Theorem C54_period_partial : forall L s,
  (period s -> validFormat L "period" (JStr s) = true) /\
  (validFormat L "period" (JStr s) = true <-> periodBy signedToo s).
Proof.
  intros L s. split; [|exact (period_iff s)].
  assert (DT : forall x, dateTime x -> dateTimeBy signedToo x). { intros x X. apply dateTime_iff. exact (proj1 (C54_date_time_partial L x) X). }
  intros H. apply period_iff. destruct H as [[(w & b & (a & p & A & -> & ->) & B & ->)|(w & b & (a & p & A & -> & ->) & B & ->)]|(w & b & (a & p & A & -> & ->) & B & ->)].
  - left. left. repeat (apply cat_made; [|auto]); auto. reflexivity.
  - left. right. repeat (apply cat_made; [|auto]); auto. reflexivity.
  - right. repeat (apply cat_made; [|auto]); auto. reflexivity.
Qed.
Print Assumptions C54_period_partial.
Theorem C54_date_time_refuted : forall L, validFormat L "date-time" (JStr "2024-02-29T-0:00:00Z") = true /\ ~ dateTime "2024-02-29T-0:00:00Z".
Proof.
  intros L. split; [reflexivity|]. intros (w & y & (x & t & X & T & ->) & Y & E).
  apply date_iff in X. pose proof (date_length _ X) as LX.
  destruct Y as (h & m & sec & o & a & b & c & frac & zone & Hh & Hm & Hs & A & _ & _ & _ & _ & _ & ->).
  apply digits_only in A; [|lia]. destruct A as (d & e & D & _ & ->).
  pose proof (get_skip x (t ++ (String (chr d) (String (chr e) "") ++ ":" ++ b ++ ":" ++ c ++ frac ++ zone)) 1) as G.
  rewrite LX, <- append_assoc, <- E in G. change (String.get (10 + 1) "2024-02-29T-0:00:00Z") with (Some "-"%char) in G.
  assert (Q : Some "-"%char = Some (chr d)) by (destruct T as [-> | ->]; exact G). injection Q as Q.
  pose proof (chr_code d D) as C. rewrite <- Q in C. change (Z.of_nat (nat_of_ascii "-")) with 45 in C. lia.
Qed.
Print Assumptions C54_date_time_refuted.
Example C54_case : fullDate "2000-02-29" /\ ~ fullDate "1900-02-29" /\ ~ fullDate "2024-04-31" /\ ~ fullDate "2024-1-01" /\
  dateTimeBy signedToo "2024-02-29t23:59:60.5-00:00" /\ ~ dateTimeBy signedToo "2024-02-29 23:59:00Z" /\
  periodBy signedToo "2024-01-01T00:00:00Z/P1D" /\ periodBy signedToo "P1D/2024-01-01T00:00:00Z" /\ ~ periodBy signedToo "P1D/P1D" /\
  (exists s, period s).
Proof.
  rewrite <- !date_iff, <- !dateTime_iff, <- !period_iff. do 9 (split; [vm_compute; first [reflexivity | intros H; discriminate H]|]).
  assert (D : duration "P1D") by (apply duration_iff; reflexivity).
  assert (T : dateTime ("2024-01-01" ++ "T" ++ "00:00:00Z")).
  { rewrite <- append_assoc. apply cat_made; [apply cat_made; [apply date_iff; reflexivity|left; reflexivity]|].
    exists 0, 0, 0, 0, "00", "00", "00", "", "Z". repeat (split; [first [lia | reflexivity | left; reflexivity]|]). split; [left; auto|]. split; [intros; lia|reflexivity]. }
  exists (("P1D" ++ "/") ++ ("2024-01-01" ++ "T" ++ "00:00:00Z")). right. apply cat_made; [apply cat_made; [exact D|reflexivity]|exact T].
Qed.
