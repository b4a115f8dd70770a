(* Facts about the validators that ask the library: isEmail, isIPV6, isURI, isURIReference, isURITemplate *)
From Coq Require Import ZArith List String Ascii Bool Lia.
From Verif Require Import Base Json RefPath Parse Formats SpecFormats FormatFacts FormatTimes FormatNames.
Import ListNotations.
Open Scope string_scope.
Open Scope Z_scope.

Lemma append_nil : forall x, x ++ "" = x.
Proof. induction x as [|c x IH]; cbn; [reflexivity|now rewrite IH]. Qed.
Lemma contains_iff : forall c s, containsStr (String c "") s = true <-> has c s.
Proof.
  intros c s. unfold has. induction s as [|d s IH]; cbn [containsStr String.prefix list_ascii_of_string In]; [split; [discriminate|tauto]|].
  destruct (ascii_dec c d) as [->|N].
  - destruct s; cbn; split; auto.
  - cbn [orb]. rewrite IH. split; [auto|]. intros [E|E]; [congruence|exact E].
Qed.
Lemma last_cut_ok : forall sep s a b, cutAtLast sep s = Some (a, b) -> s = a ++ String sep b /\ lacks sep b.
Proof.
  intros sep s. induction s as [|c r IH]; intros a b H; cbn [cutAtLast] in H; [discriminate|].
  destruct (cutAtLast sep r) as [[x y]|] eqn:E.
  - injection H as <- <-. destruct (IH _ _ eq_refl) as [-> L]. split; [reflexivity|exact L].
  - destruct (Ascii.eqb_spec c sep) as [->|]; [|discriminate]. injection H as <- <-. split; [reflexivity|].
    clear IH. induction r as [|d r IH]; [intros []|]. cbn [cutAtLast] in E. destruct (cutAtLast sep r) as [[? ?]|] eqn:E'; [discriminate|].
    destruct (Ascii.eqb_spec d sep) as [|N]; [discriminate|]. intros [->|K]; [congruence|]. exact (IH eq_refl K).
Qed.
Lemma last_cut_none : forall sep b, lacks sep b -> cutAtLast sep b = None.
Proof.
  intros sep b. induction b as [|c b IH]; intros L; cbn [cutAtLast]; [reflexivity|]. rewrite IH by (intros K; apply L; right; exact K).
  destruct (Ascii.eqb_spec c sep) as [->|]; [|reflexivity]. exfalso. apply L. left. reflexivity.
Qed.
Lemma last_cut_made : forall sep a b, lacks sep b -> cutAtLast sep (a ++ String sep b) = Some (a, b).
Proof.
  intros sep a b L. induction a as [|c a IH]; cbn [append cutAtLast].
  - rewrite (last_cut_none _ _ L), Ascii.eqb_refl. reflexivity.
  - rewrite IH. reflexivity.
Qed.
Lemma last_split : forall s, s <> "" -> exists x c, s = x ++ String c "".
Proof.
  induction s as [|c s IH]; [congruence|]. intros _. destruct s as [|d s]; [exists "", c; reflexivity|].
  destruct IH as (x & e & E); [discriminate|]. exists (String c x), e. cbn [append]. now rewrite <- E.
Qed.
Lemma length_app : forall x y, String.length (x ++ y) = (String.length x + String.length y)%nat.
Proof. induction x as [|c x IH]; intros y; cbn; [reflexivity|]. now rewrite IH. Qed.
Lemma get_app : forall x c y, String.get (String.length x) (x ++ String c y) = Some c.
Proof. induction x as [|d x IH]; intros c y; cbn; [reflexivity|apply IH]. Qed.
Lemma lastByte_app : forall x c, lastByte (x ++ String c "") = Some c.
Proof. intros x c. unfold lastByte. rewrite length_app. cbn [String.length]. replace (String.length x + 1 - 1)%nat with (String.length x) by lia. apply get_app. Qed.
Lemma substring_head : forall x y, substring 0 (String.length x) (x ++ y) = x.
Proof. induction x as [|c x IH]; intros y; [destruct y; reflexivity|]. cbn. now rewrite IH. Qed.
Lemma substring_whole : forall x n, (String.length x <= n)%nat -> substring 0 n x = x.
Proof. induction x as [|c x IH]; intros n H; [destruct n; reflexivity|]. cbn in H. destruct n; [lia|]. cbn. now rewrite IH by lia. Qed.
Lemma bracketed : forall d, ((2 <=? String.length d)%nat && isByte "[" (String.get 0 d) && isByte "]" (lastByte d)) = true <-> exists ip, d = "[" ++ ip ++ "]".
Proof.
  intros d. split.
  - intros H. apply andb_prop in H. destruct H as [H B]. apply andb_prop in H. destruct H as [H A].
    apply Nat.leb_le in H. destruct d as [|c d]; [discriminate|]. cbn in A. apply Ascii.eqb_eq in A. subst c.
    destruct d as [|c d]; [cbn in H; lia|]. destruct (last_split (String c d)) as (x & e & E); [discriminate|].
    rewrite E in B. change (String "[" (x ++ String e "")) with (String "[" x ++ String e "") in B. rewrite lastByte_app in B.
    cbn in B. apply Ascii.eqb_eq in B. subst e. exists x. cbn [append]. now rewrite E.
  - intros (ip & ->). change ("[" ++ ip ++ "]") with (String "[" ip ++ String "]" ""). rewrite lastByte_app. cbn [append String.get String.length isByte].
    rewrite length_app. cbn [String.length]. replace (2 <=? S (String.length ip + 1))%nat with true by (symmetry; apply Nat.leb_le; lia). reflexivity.
Qed.
Lemma inside : forall ip, substring 1 (String.length ("[" ++ ip ++ "]") - 2) ("[" ++ ip ++ "]") = ip.
Proof.
  intros ip. cbn [append String.length substring]. rewrite length_app. cbn [String.length].
  replace (S (String.length ip + 1) - 2)%nat with (String.length ip) by lia. apply substring_head.
Qed.
Lemma host_bracket : forall r, isHostname ("[" ++ r ++ "]") = false.
Proof.
  intros r. unfold isHostname. cbv zeta.
  assert (E : exists q, trimDot ("[" ++ r ++ "]") = String "[" q) by (cbn [append trimDot]; destruct (r ++ "]") eqn:R; [destruct r; discriminate|]; eexists; reflexivity).
  destruct E as (q & ->). destruct (253 <? String.length (String "[" q))%nat; [reflexivity|].
  cbn [splitOn]. change (Ascii.eqb "[" ".") with false. cbv iota. destruct (splitOn "." q) as [|h t] eqn:S; [now apply splitOn_some in S|].
  cbn [forallb]. assert (Z : allChars hostChar (String "[" h) = false) by reflexivity. rewrite Z. now rewrite !andb_false_r.
Qed.
Lemma v4_tag : forall x, isIPV4 ("IPv6:" ++ x) = false.
Proof.
  intros x. unfold isIPV4. cbv zeta. cbn [append splitOn].
  repeat match goal with |- context [Ascii.eqb ?a ?b] => let v := eval compute in (Ascii.eqb a b) in change (Ascii.eqb a b) with v; cbv iota end.
  destruct (splitOn "." x) as [|h t] eqn:S; [now apply splitOn_some in S|].
  cbn [forallb]. assert (Z : ipv4Group (String "I" (String "P" (String "v" (String "6" (String ":" h))))) = false) by reflexivity.
  rewrite Z. cbn [andb]. apply andb_false_r.
Qed.
Lemma prefix_tag : forall x, String.prefix "IPv6:" ("IPv6:" ++ x) = true.
Proof. intros x. destruct x; reflexivity. Qed.
Lemma prefix_inv : forall p s, String.prefix p s = true -> exists x, s = p ++ x.
Proof.
  induction p as [|c p IH]; intros s H; [exists s; reflexivity|]. destruct s as [|d s]; [discriminate|]. cbn in H.
  destruct (ascii_dec c d) as [->|]; [|discriminate]. destruct (IH _ H) as (x & ->). exists x. reflexivity.
Qed.
Lemma ipv6_iff : forall L s, isIPV6 L s = true <-> has ":" s /\ nlIP L s = true.
Proof. intros L s. unfold isIPV6. rewrite andb_true_iff, contains_iff. tauto. Qed.

Lemma substring_app : forall x, substring 5 (String.length ("IPv6:" ++ x)) ("IPv6:" ++ x) = x.
Proof. intros x. cbn [append String.length substring]. apply substring_whole. lia. Qed.
Definition v6 (L : netlib) : lang := fun s => has ":" s /\ nlIP L s = true.
Lemma email_iff : forall L s, isEmail L s = true <-> mailbox looseHostname (dottedQuad looseOctet) (v6 L) (fun a => nlAddress L a = true) s.
Proof.
  intros L s. unfold isEmail. split.
  - intros H. destruct (Nat.ltb_spec 254 (String.length s)) as [|N]; [discriminate|].
    destruct (cutAtLast "@" s) as [[local domain]|] eqn:C; [|discriminate]. apply last_cut_ok in C. destruct C as [E LK].
    destruct (Nat.ltb_spec 64 (String.length local)) as [|N']; [discriminate|]. exists local, domain.
    split; [exact E|]. split; [exact LK|]. split; [exact N|]. split; [exact N'|].
    destruct (_ && _ && _) eqn:B in H.
    + apply bracketed in B. destruct B as (ip & ->). cbv zeta in H. rewrite inside in H. destruct (String.prefix "IPv6:" ip) eqn:P.
      * apply prefix_inv in P. destruct P as (x & ->). left. exists ("[IPv6:" ++ x), "]". split; [exists "[IPv6:", x; split; [reflexivity|]|split; reflexivity].
        split; [|reflexivity]. apply ipv6_iff in H. rewrite substring_app in H. exact H.
      * right. left. exists ("[" ++ ip), "]". split; [exists "[", ip; split; [reflexivity|]|split; reflexivity]. split; [|reflexivity]. now apply ipv4_iff.
    + apply andb_prop in H. destruct H as [H A]. right. right. split; [now apply hostname_iff|exact A].
  - intros (local & domain & E & LK & N & N' & K). destruct (Nat.ltb_spec 254 (String.length s)) as [|_]; [lia|].
    change (local ++ "@" ++ domain) with (local ++ String "@" domain) in E. rewrite E at 1. rewrite last_cut_made by exact LK.
    destruct (Nat.ltb_spec 64 (String.length local)) as [|_]; [lia|].
    destruct K as [(? & ? & (? & x & -> & X & ->) & -> & ->)|[(? & ? & (? & x & -> & X & ->) & -> & ->)|[K A]]].
    + assert (B : exists ip, (("[IPv6:" ++ x) ++ "]")%string = "[" ++ ip ++ "]") by (exists ("IPv6:" ++ x); reflexivity).
      apply bracketed in B. rewrite B. change (("[IPv6:" ++ x) ++ "]") with ("[" ++ ("IPv6:" ++ x) ++ "]"). cbv zeta. rewrite inside, prefix_tag, substring_app. now apply ipv6_iff.
    + assert (B : exists ip, (("[" ++ x) ++ "]")%string = "[" ++ ip ++ "]") by (exists x; reflexivity).
      apply bracketed in B. rewrite B. change (("[" ++ x) ++ "]") with ("[" ++ x ++ "]"). cbv zeta. rewrite inside. apply ipv4_iff in X.
      destruct (String.prefix "IPv6:" x) eqn:P; [|exact X]. apply prefix_inv in P. destruct P as (y & ->). rewrite v4_tag in X. discriminate.
    + destruct (_ && _ && _) eqn:B.
      * apply bracketed in B. destruct B as (ip & ->). apply hostname_iff in K. rewrite host_bracket in K. discriminate.
      * apply hostname_iff in K. rewrite K. exact A.
Qed.

(* ---------------------------------------------------------- templates *)
Lemma braces_ok : forall s, (braces 0 s = true -> template s) /\
  (braces 1 s = true -> exists x y, star noBrace x /\ template y /\ s = x ++ "}" ++ y).
Proof.
  induction s as [|c s [A B]]; cbn [braces]; [split; [constructor|discriminate]|].
  destruct (Ascii.eqb_spec c "{") as [->|N1].
  - split; intros H.
    + apply andb_prop in H. destruct H as [_ H]. change (0 + 1) with 1 in H. destruct (B H) as (x & y & X & Y & ->).
      change (String "{" (x ++ "}" ++ y)) with ("{" ++ x ++ "}" ++ y). rewrite append_assoc, append_assoc. constructor; [|exact Y].
      right. apply cat_made; [apply cat_made; [reflexivity|exact X]|reflexivity].
    + discriminate H.
  - destruct (Ascii.eqb_spec c "}") as [->|N2].
    + split; intros H; [discriminate H|]. apply andb_prop in H. destruct H as [_ H]. exists "", s. split; [constructor|]. split; [exact (A H)|reflexivity].
    + split; intros H.
      * change (String c s) with (String c "" ++ s). constructor; [|exact (A H)]. left. exists c. auto.
      * destruct (B H) as (x & y & X & Y & ->). exists (String c x), y. split; [|split; [exact Y|reflexivity]].
        change (String c x) with (String c "" ++ x). constructor; [exists c; auto|exact X].
Qed.
Lemma braces_skip : forall x d r, star noBrace x -> braces d (x ++ r) = braces d r.
Proof.
  intros x d r S. induction S as [|x y (c & [N1 N2] & ->) S IH]; [reflexivity|]. cbn [append braces].
  destruct (Ascii.eqb_spec c "{"); [congruence|]. destruct (Ascii.eqb_spec c "}"); [congruence|]. exact IH.
Qed.
Lemma braces_made : forall s, template s -> braces 0 s = true.
Proof.
  intros s S. induction S as [|x y [(c & [N1 N2] & ->)|(? & ? & (? & b & -> & B & ->) & -> & ->)] S IH]; [reflexivity|..].
  - cbn [append braces]. destruct (Ascii.eqb_spec c "{"); [congruence|]. destruct (Ascii.eqb_spec c "}"); [congruence|]. exact IH.
  - rewrite <- !append_assoc. cbn [append braces]. change (Ascii.eqb "{" "{") with true. cbn [andb]. change (0 + 1 =? 1) with true. cbn [andb].
    rewrite braces_skip by exact B. cbn [append braces]. change (Ascii.eqb "}" "{") with false. change (Ascii.eqb "}" "}") with true. exact IH.
Qed.
Lemma joined_parts : forall (x : string) l1 l2, joined "/" (l1 ++ x :: l2)%list =
  (match l1 with [] => "" | _ => joined "/" l1 ++ "/" end) ++ x ++ (match l2 with [] => "" | _ => "/" ++ joined "/" l2 end).
Proof.
  intros x l1 l2. induction l1 as [|u l1 IH].
  - cbn [app]. destruct l2 as [|v l2]; cbn; [now rewrite append_nil|reflexivity].
  - destruct l1 as [|w l1].
    + cbn [app] in *. change (joined "/" (u :: x :: l2)) with (u ++ "/" ++ joined "/" (x :: l2)). rewrite IH. cbn [joined]. rewrite <- !append_assoc. reflexivity.
    + change (joined "/" ((u :: w :: l1) ++ x :: l2)%list) with (u ++ "/" ++ joined "/" ((w :: l1) ++ x :: l2)%list). rewrite IH.
      change (joined "/" (u :: w :: l1)) with (u ++ "/" ++ joined "/" (w :: l1)). rewrite <- !append_assoc. reflexivity.
Qed.
Lemma splitOn_both : forall sep a r, splitOn sep (a ++ String sep r) = (splitOn sep a ++ splitOn sep r)%list.
Proof.
  intros sep a r. induction a as [|c a IH]; cbn [append splitOn].
  - rewrite Ascii.eqb_refl. reflexivity.
  - rewrite IH. destruct (Ascii.eqb c sep); [reflexivity|]. destruct (splitOn sep a) as [|h t] eqn:E; [now apply splitOn_some in E|]. reflexivity.
Qed.
Lemma split_segment : forall path x, In x (splitOn "/" path) <-> segment path x.
Proof.
  intros path x. split.
  - intros H. pose proof (splitOn_lacks "/" path) as K. rewrite Forall_forall in K. specialize (K _ H).
    pose proof (splitOn_joined "/" path) as J. apply in_split in H. destruct H as (l1 & l2 & H). rewrite H, joined_parts in J.
    exists (match l1 with [] => "" | _ => joined "/" l1 ++ "/" end), (match l2 with [] => "" | _ => "/" ++ joined "/" l2 end).
    split; [now symmetry|]. split; [exact K|]. split.
    + destruct l1; [left; reflexivity|right; eexists; reflexivity].
    + destruct l2; [left; reflexivity|right; eexists; reflexivity].
  - intros (a & b & -> & S & A & B).
    assert (F : In x (splitOn "/" (x ++ b))). { destruct B as [->|(b' & ->)].
      - rewrite append_nil, splitOn_one by exact S. left. reflexivity.
      - change (x ++ "/" ++ b') with (x ++ String "/" b'). rewrite splitOn_app by exact S. left. reflexivity. }
    destruct A as [->|(a' & ->)]; [exact F|]. rewrite <- append_assoc. cbn [append]. rewrite splitOn_both. apply in_or_app. right. exact F.
Qed.
Definition urlOk (L : netlib) (s : string) (u : urlInfo) : Prop := nlUrl L s = Some u /\
  (has ":" (uHostname u) -> has "[" (uHost u) /\ has "]" (uHost u) /\ v6 L (uHostname u)).
Lemma urlParse_iff : forall L s u, urlParse L s = Some u <-> urlOk L s u.
Proof.
  intros L s u. unfold urlParse, urlOk. destruct (nlUrl L s) as [w|]; [|split; [discriminate|intros [? _]; discriminate]].
  assert (N : forall c t, containsStr (String c "") t = false -> ~ has c t) by (intros c t E K; apply contains_iff in K; congruence).
  destruct (containsStr ":" (uHostname w)) eqn:A.
  - destruct (containsStr "[" (uHost w)) eqn:B; cbn [negb orb].
    + destruct (containsStr "]" (uHost w)) eqn:C; cbn [negb].
      * destruct (isIPV6 L (uHostname w)) eqn:D; cbn [negb].
        -- split; [intros H|intros [H _]; exact H]. split; [exact H|]. injection H as <-. intros _. split; [now apply contains_iff|]. split; [now apply contains_iff|now apply ipv6_iff].
        -- split; [discriminate|]. intros [H K]. injection H as <-. apply contains_iff in A. destruct (K A) as (_ & _ & V). apply ipv6_iff in V. congruence.
      * split; [discriminate|]. intros [H K]. injection H as <-. apply contains_iff in A. destruct (K A) as (_ & V & _). now apply N in C.
    + split; [discriminate|]. intros [H K]. injection H as <-. apply contains_iff in A. destruct (K A) as (V & _ & _). now apply N in B.
  - split; [intros H|intros [H _]; exact H]. split; [exact H|]. injection H as <-. intros K. now apply N in A.
Qed.
Lemma template_iff : forall L s, isURITemplate L s = true <-> exists u, urlOk L s u /\ forall x, segment (uRawPath u) x -> template x.
Proof.
  intros L s. unfold isURITemplate. split.
  - destruct (urlParse L s) as [u|] eqn:E; [|discriminate]. apply urlParse_iff in E. intros H. exists u. split; [exact E|].
    rewrite forallb_forall in H. intros x X. apply split_segment in X. exact (proj1 (braces_ok x) (H _ X)).
  - intros (u & U & H). apply urlParse_iff in U. rewrite U. apply forallb_forall. intros x X. apply braces_made, H. now apply split_segment.
Qed.
