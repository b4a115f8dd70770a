(* Specification of the string formats, as grammars.  Strings are sequences of bytes. *)
From Coq Require Import ZArith List String Ascii Bool Lia.
From Verif Require Import Base.
Import ListNotations.
Open Scope string_scope.
Open Scope Z_scope.

(* ---------------------------------------------------------- building grammars *)
Definition lang := string -> Prop.
Definition lit (x : string) : lang := fun s => s = x.
Definition one (p : ascii -> Prop) : lang := fun s => exists c, p c /\ s = String c "".
Definition cat (a b : lang) : lang := fun s => exists x y, a x /\ b y /\ s = x ++ y.
Definition alt (a b : lang) : lang := fun s => a s \/ b s.
Definition opt (a : lang) : lang := alt (lit "") a.
Inductive star (a : lang) : lang :=
| star_nil : star a ""
| star_cons : forall x y, a x -> star a y -> star a (x ++ y).
Definition some (a : lang) : lang := cat a (star a).
Fixpoint times (n : nat) (a : lang) : lang := match n with O => lit "" | S k => cat a (times k a) end.
Fixpoint joined (sep : string) (parts : list string) : string :=
  match parts with [] => "" | [x] => x | x :: r => x ++ sep ++ joined sep r end.
Infix "⋅" := cat (at level 50, left associativity).
Infix "∪" := alt (at level 55, left associativity).

Definition code (c : ascii) : Z := Z.of_nat (nat_of_ascii c).
Definition inRange (a z : ascii) (c : ascii) : Prop := code a <= code c <= code z.
Definition digit : lang := one (inRange "0" "9").
Definition hexDigit : lang := one (fun c => inRange "0" "9" c \/ inRange "a" "f" c \/ inRange "A" "F" c).

(* ---------------------------------------------------------- RFC 4122 *)
Definition uuid : lang :=
  times 8 hexDigit ⋅ lit "-" ⋅ times 4 hexDigit ⋅ lit "-" ⋅ times 4 hexDigit ⋅ lit "-" ⋅ times 4 hexDigit ⋅ lit "-" ⋅ times 12 hexDigit.

(* ---------------------------------------------------------- RFC 6901 *)
Definition unescaped : lang := one (fun c => c <> "~"%char /\ c <> "/"%char).
Definition token : lang := star (unescaped ∪ lit "~0" ∪ lit "~1").
Definition jsonPointer : lang := star (lit "/" ⋅ token).
(* relative pointers: a number without leading zeros, then "#" or a pointer *)
Definition levels : lang := lit "0" ∪ (one (inRange "1" "9") ⋅ star digit).
Definition relativePointer : lang := levels ⋅ (lit "#" ∪ jsonPointer).

(* ---------------------------------------------------------- RFC 3339 appendix A *)
Definition counted (u : string) : lang := some digit ⋅ lit u.
Definition durSecond : lang := counted "S".
Definition durMinute : lang := counted "M" ⋅ opt durSecond.
Definition durHour : lang := counted "H" ⋅ opt durMinute.
Definition durTime : lang := lit "T" ⋅ (durHour ∪ durMinute ∪ durSecond).
Definition durDay : lang := counted "D".
Definition durWeek : lang := counted "W".
Definition durMonth : lang := counted "M" ⋅ opt durDay.
Definition durYear : lang := counted "Y" ⋅ opt durMonth.
Definition durDate : lang := (durDay ∪ durMonth ∪ durYear) ⋅ opt durTime.
Definition duration : lang := lit "P" ⋅ (durDate ∪ durTime ∪ durWeek).

(* ---------------------------------------------------------- RFC 3339 section 5.6 *)
(* a number written with n digits *)
Fixpoint padded (n : nat) (z : Z) : string :=
  match n with
  | O => ""
  | S k => padded k (z / 10) ++ String (ascii_of_nat (Z.to_nat (48 + z mod 10))) ""
  end.
Definition daysIn (month year : Z) : Z :=
  if month =? 2 then (if (year mod 4 =? 0) && (negb (year mod 100 =? 0) || (year mod 400 =? 0)) then 29 else 28)
  else if (month =? 4) || (month =? 6) || (month =? 9) || (month =? 11) then 30 else 31.
Definition fullDate : lang := fun s => exists y m d,
  0 <= y <= 9999 /\ 1 <= m <= 12 /\ 1 <= d <= daysIn m y /\ s = padded 4 y ++ "-" ++ padded 2 m ++ "-" ++ padded 2 d.
(* the grammar of times, for a way num of writing numbers in the fields *)
Section Times.
Variable num : Z -> lang.
(* "Z" or the distance from UTC in minutes *)
Definition offsetBy (o : Z) : lang := fun s =>
  (o = 0 /\ (s = "Z" \/ s = "z")) \/
  exists h m x y, 0 <= h <= 23 /\ 0 <= m <= 59 /\ num h x /\ num m y /\
    ((o = 60 * h + m /\ s = "+" ++ x ++ ":" ++ y) \/ (o = - (60 * h + m) /\ s = "-" ++ x ++ ":" ++ y)).
(* second 60 exists only at the end of a UTC day *)
Definition fullTimeBy : lang := fun s => exists h m sec o x y z frac zone,
  0 <= h <= 23 /\ 0 <= m <= 59 /\ 0 <= sec <= 60 /\ num h x /\ num m y /\ num sec z /\
  opt (lit "." ⋅ some digit) frac /\ offsetBy o zone /\
  (sec = 60 -> (60 * h + m - o) mod 1440 = 1439) /\
  s = x ++ ":" ++ y ++ ":" ++ z ++ frac ++ zone.
Definition dateTimeBy : lang := fullDate ⋅ (lit "T" ∪ lit "t") ⋅ fullTimeBy.
Definition periodBy : lang := (dateTimeBy ⋅ lit "/" ⋅ dateTimeBy) ∪ (dateTimeBy ⋅ lit "/" ⋅ duration) ∪ (duration ⋅ lit "/" ⋅ dateTimeBy).
End Times.
(* the fields of the RFC have two digits *)
Definition twoDigits (n : Z) : lang := fun s => s = padded 2 n.
Definition fullTime : lang := fullTimeBy twoDigits.
Definition dateTime : lang := dateTimeBy twoDigits.
Definition period : lang := periodBy twoDigits.
(* two digits, or a sign and one digit *)
Definition signedToo (n : Z) : lang := fun s => s = padded 2 n \/ (0 <= n <= 9 /\ s = "+" ++ padded 1 n) \/ (n = 0 /\ s = "-0").

(* ---------------------------------------------------------- RFC 1123, RFC 2673 *)
Definition alnum (c : ascii) : Prop := inRange "a" "z" c \/ inRange "A" "Z" c \/ inRange "0" "9" c.
(* letters, digits and hyphens, with no hyphen at either end *)
Definition label (s : string) : Prop :=
  (1 <= String.length s <= 63)%nat /\
  (forall i c, String.get i s = Some c -> alnum c \/ c = "-"%char) /\
  String.get 0 s <> Some "-"%char /\ String.get (String.length s - 1) s <> Some "-"%char.
Definition hostname : lang := fun s => exists labels,
  labels <> [] /\ Forall label labels /\ (String.length (joined "." labels) <= 253)%nat /\
  (s = joined "." labels \/ s = joined "." labels ++ ".").
Definition octet (s : string) : Prop := exists n, 0 <= n <= 255 /\ s = itoa n.
Definition dottedQuad (group : lang) : lang := fun s => exists a b c d,
  group a /\ group b /\ group c /\ group d /\ s = joined "." [a; b; c; d].
Definition ipv4 : lang := dottedQuad octet.
(* also several zeros, and a sign before digits *)
Definition looseOctet (s : string) : Prop :=
  octet s \/ some (lit "0") s \/ (exists n z, 0 <= n <= 255 /\ star (lit "0") z /\ s = "+" ++ z ++ itoa n) \/
  (exists z, some (lit "0") z /\ s = "-" ++ z).
(* also hyphens at the start of a label that is not the first *)
Definition looseLabel (s : string) : Prop :=
  (1 <= String.length s <= 63)%nat /\
  (forall i c, String.get i s = Some c -> alnum c \/ c = "-"%char) /\
  String.get (String.length s - 1) s <> Some "-"%char.
Definition looseHostname : lang := fun s => exists first labels,
  label first /\ Forall looseLabel labels /\ (String.length (joined "." (first :: labels)) <= 253)%nat /\
  (s = joined "." (first :: labels) \/ s = joined "." (first :: labels) ++ ".").

(* ---------------------------------------------------------- RFC 5321, RFC 6570, RFC 3986, beyond what the library decides *)
Definition has (c : ascii) (s : string) : Prop := In c (list_ascii_of_string s).
(* host names, IPv4 and IPv6 addresses and whole addresses are given: the local part ends at the last at-sign *)
Definition mailbox (host v4 v6 address : lang) : lang := fun s => exists local domain,
  s = local ++ "@" ++ domain /\ ~ has "@" domain /\ (String.length s <= 254)%nat /\ (String.length local <= 64)%nat /\
  ((lit "[IPv6:" ⋅ v6 ⋅ lit "]") domain \/ (lit "[" ⋅ v4 ⋅ lit "]") domain \/ (host domain /\ address s)).
(* expressions are in braces, and not nested *)
Definition noBrace : lang := one (fun c => c <> "{"%char /\ c <> "}"%char).
Definition template : lang := star (noBrace ∪ (lit "{" ⋅ star noBrace ⋅ lit "}")).
(* the parts of a path: what stands between two slashes *)
Definition segment (path x : string) : Prop := exists a b, path = a ++ x ++ b /\ ~ has "/" x /\
  (a = "" \/ exists a', a = a' ++ "/") /\ (b = "" \/ exists b', b = "/" ++ b').
