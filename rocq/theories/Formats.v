(* internal/jsonschema/formats.go: the validators of string formats.
   Strings are sequences of bytes.  net, net/mail, net/url and regexp are arguments; strconv.Atoi is RefPath.atoi;
   time.Parse is modelled for the one layout it is used with. *)
From Coq Require Import ZArith List String Ascii Bool Lia.
From Verif Require Import Base Json RefPath Parse.
Import ListNotations.
Open Scope string_scope.
Open Scope Z_scope.

(* strings.Split with a separator of one byte *)
Fixpoint splitOn (sep : ascii) (str : string) : list string :=
  match str with
  | EmptyString => [""]
  | String c r =>
      if Ascii.eqb c sep then "" :: splitOn sep r
      else match splitOn sep r with h :: t => String c h :: t | [] => [] end
  end.
(* str[0] <= c <= str[1] on bytes *)
Definition byteIn (a z c : ascii) : bool :=
  (Z.of_nat (nat_of_ascii a) <=? Z.of_nat (nat_of_ascii c)) && (Z.of_nat (nat_of_ascii c) <=? Z.of_nat (nat_of_ascii z)).
(* the loops that skip digits, formats.go 129-135, 212-218, 504-506: whether there was one, and the rest *)
Fixpoint skipDigits (str : string) : bool * string :=
  match str with
  | String c r => if byteIn "0" "9" c then (true, snd (skipDigits r)) else (false, str)
  | EmptyString => (false, str)
  end.

(* formats.go 99-108 isInRange *)
Definition isInRange (str : string) (minVal maxVal : Z) : option Z :=
  match atoi str with
  | None => None
  | Some n => if (n <? minVal) || (maxVal <? n) then None else Some n
  end.

(* formats.go 144-180: the zone, and the check of a leap second; h, m and s are the fields read before *)
Definition zoneOk (h m s : Z) (str : string) : bool :=
  let leap h m := if s =? 60 then (h =? 23) && (m =? 59) else true in
  match str with
  | EmptyString => false
  | String z r =>
      if Ascii.eqb z "z" || Ascii.eqb z "Z" then String.eqb r "" && leap h m
      else
        match r with
        | String a (String b (String c (String d (String e EmptyString)))) =>
            if negb (Ascii.eqb c ":") then false
            else
              let withSign sign :=
                match isInRange (String a (String b "")) 0 23 with
                | None => false
                | Some zh =>
                    match isInRange (String d (String e "")) 0 59 with
                    | None => false
                    | Some zm =>
                        let hm := (h * 60 + m) + sign * (zh * 60 + zm) in
                        let hm := if hm <? 0 then hm + 24 * 60 else hm in
                        leap (Z.quot hm 60) (Z.rem hm 60)
                    end
                end in
              if Ascii.eqb z "+" then withSign (-1)
              else if Ascii.eqb z "-" then withSign 1
              else false
        | _ => false
        end
  end.
(* formats.go 82-190 isTime on strings *)
Definition isTime (str : string) : bool :=
  match str with
  | String h1 (String h2 (String c1 (String m1 (String m2 (String c2 (String s1 (String s2 rest))))))) =>
      if String.eqb rest "" || negb (Ascii.eqb c1 ":") || negb (Ascii.eqb c2 ":") then false
      else
        match isInRange (String h1 (String h2 "")) 0 23 with
        | None => false
        | Some h =>
            match isInRange (String m1 (String m2 "")) 0 59 with
            | None => false
            | Some m =>
                match isInRange (String s1 (String s2 "")) 0 60 with
                | None => false
                | Some s =>
                    match rest with
                    | String c r =>
                        if Ascii.eqb c "." then (if fst (skipDigits r) then zoneOk h m s (snd (skipDigits r)) else false)
                        else zoneOk h m s rest
                    | EmptyString => false
                    end
                end
            end
        end
  | _ => false
  end.

(* time.Parse("2006-01-02", s), used by formats.go 67-74 isDate: four digits, two digits, two digits, then the
   ranges of the month and of the day in that month *)
Definition digitOf (c : ascii) : option Z := if isDigit c then Some (Z.of_nat (nat_of_ascii c) - 48) else None.
Fixpoint fixedDigits (str : string) (acc : Z) : option Z :=
  match str with
  | EmptyString => Some acc
  | String c r => match digitOf c with Some d => fixedDigits r (acc * 10 + d) | None => None end
  end.
Definition goDaysIn (month year : Z) : Z :=
  if (month =? 2) && ((year mod 4 =? 0) && (negb (year mod 100 =? 0) || (year mod 400 =? 0))) then 29
  else nth (Z.to_nat month) [0; 31; 28; 31; 30; 31; 30; 31; 31; 30; 31; 30; 31] 0.
Definition isDate (str : string) : bool :=
  match str with
  | String y1 (String y2 (String y3 (String y4 (String c1 (String m1 (String m2 (String c2 (String d1 (String d2 EmptyString))))))))) =>
      Ascii.eqb c1 "-" && Ascii.eqb c2 "-" &&
      match fixedDigits (String y1 (String y2 (String y3 (String y4 "")))) 0,
            fixedDigits (String m1 (String m2 "")) 0, fixedDigits (String d1 (String d2 "")) 0 with
      | Some y, Some m, Some d => (1 <=? m) && (m <=? 12) && (1 <=? d) && (d <=? goDaysIn m y)
      | _, _, _ => false
      end
  | _ => false
  end.

(* formats.go 49-61 isDateTime *)
Definition isDateTime (str : string) : bool :=
  if (String.length str <? 20)%nat then false
  else match String.get 10 str with
       | Some c =>
           if negb (Ascii.eqb c "T") && negb (Ascii.eqb c "t") then false
           else isDate (substring 0 10 str) && isTime (substring 11 (String.length str) str)
       | None => false
       end.

(* formats.go 205-226 parseUnits: the two nested loops as one pass; digits says that the inner loop has seen one.
   The units read and the text left, or None *)
Fixpoint parseUnits (digits : bool) (str : string) : option (string * string) :=
  match str with
  | EmptyString => if digits then None else Some ("", "")
  | String c r =>
      if byteIn "0" "9" c then parseUnits true r
      else if digits then
        match parseUnits false r with Some (us, rest) => Some (String c us, rest) | None => None end
      else if Ascii.eqb c "T" then Some ("", str)
      else None
  end.
(* formats.go 196-249 isDuration *)
Definition durationTime (str : string) : bool :=
  match str with
  | String c r =>
      Ascii.eqb c "T" &&
      match parseUnits false r with
      | Some (us, rest) => String.eqb rest "" && negb (String.eqb us "") && containsStr us "HMS"
      | None => false
      end
  | EmptyString => false
  end.
Definition isDuration (str : string) : bool :=
  match str with
  | String c r =>
      Ascii.eqb c "P" &&
      match parseUnits false r with
      | None => false
      | Some (us, rest) =>
          if String.eqb us "W" then String.eqb rest ""
          else if negb (String.eqb us "") then
            if negb (containsStr us "YMD") then false
            else if String.eqb rest "" then true
            else durationTime rest
          else durationTime rest
      end
  | EmptyString => false
  end.

(* strings.IndexByte: the text before and after the first separator *)
Fixpoint cutAt (sep : ascii) (str : string) : option (string * string) :=
  match str with
  | EmptyString => None
  | String c r =>
      if Ascii.eqb c sep then Some ("", r)
      else match cutAt sep r with Some (a, b) => Some (String c a, b) | None => None end
  end.
(* formats.go 251-268 isPeriod *)
Definition isPeriod (str : string) : bool :=
  match cutAt "/" str with
  | None => false
  | Some (start, stop) =>
      if isDateTime start then isDateTime stop || isDuration stop
      else isDuration start && isDateTime stop
  end.

(* strings.TrimSuffix(s, ".") *)
Fixpoint trimDot (str : string) : string :=
  match str with
  | EmptyString => ""
  | String c r => match r with EmptyString => if Ascii.eqb c "." then "" else str | _ => String c (trimDot r) end
  end.
Definition lastByte (str : string) : option ascii := String.get (String.length str - 1) str.
Definition isByte (a : ascii) (o : option ascii) : bool := match o with Some c => Ascii.eqb c a | None => false end.
Definition hostChar (c : ascii) : bool := byteIn "a" "z" c || byteIn "A" "Z" c || byteIn "0" "9" c || Ascii.eqb c "-".
Fixpoint allChars (p : ascii -> bool) (str : string) : bool :=
  match str with EmptyString => true | String c r => p c && allChars p r end.
(* formats.go 270-317 isHostname; the first byte inspected is that of the whole name.  Ranging over the runes of a label
   and over its bytes agree: a rune that is allowed is one byte, and a byte of any other rune is not allowed *)
Definition isHostname (str : string) : bool :=
  let s := trimDot str in
  if (253 <? String.length s)%nat then false
  else
    forallb
      (fun label =>
         (1 <=? String.length label)%nat && (String.length label <=? 63)%nat &&
         negb (isByte "-" (String.get 0 s)) && negb (isByte "-" (lastByte label)) && allChars hostChar label)
      (splitOn "." s).

(* formats.go 362-385 isIPV4 *)
Definition ipv4Group (group : string) : bool :=
  match atoi group with
  | None => false
  | Some n =>
      if (n <? 0) || (255 <? n) then false
      else negb (negb (n =? 0) && isByte "0" (String.get 0 group))
  end.
Definition isIPV4 (str : string) : bool :=
  let groups := splitOn "." str in
  Nat.eqb (List.length groups) 4 && forallb ipv4Group groups.

(* formats.go 467-492 isJSONPointer *)
Fixpoint tildesOk (item : string) : bool :=
  match item with
  | EmptyString => true
  | String c r =>
      (if Ascii.eqb c "~" then match r with String d _ => Ascii.eqb d "0" || Ascii.eqb d "1" | EmptyString => false end else true) && tildesOk r
  end.
Definition isJSONPointer (str : string) : bool :=
  (String.eqb str "" || String.prefix "/" str) && forallb tildesOk (splitOn "/" str).

(* formats.go 494-517 isRelativeJSONPointer *)
Definition isRelativeJSONPointer (str : string) : bool :=
  match str with
  | EmptyString => false
  | String c r =>
      let rest := if Ascii.eqb c "0" then Some r
                  else if byteIn "0" "9" c then Some (snd (skipDigits str))
                  else None in
      match rest with
      | Some s => String.eqb s "#" || isJSONPointer s
      | None => false
      end
  end.

(* formats.go 519-557 isUUID *)
Definition isHex (c : ascii) : bool := byteIn "0" "9" c || byteIn "a" "f" c || byteIn "A" "F" c.
Fixpoint parseHex (n : nat) (str : string) : option string :=
  match n with
  | O => Some str
  | S k => match str with String c r => if isHex c then parseHex k r else None | EmptyString => None end
  end.
Fixpoint uuidGroups (groups : list nat) (str : string) : bool :=
  match groups with
  | [] => String.eqb str ""
  | n :: more =>
      match parseHex n str with
      | None => false
      | Some r =>
          match more with
          | [] => String.eqb r ""
          | _ => match r with String c r => Ascii.eqb c "-" && uuidGroups more r | EmptyString => false end
          end
      end
  end.
Definition isUUID (str : string) : bool := uuidGroups [8; 4; 4; 4; 12]%nat str.

(* what net, net/mail, net/url and regexp answer *)
Record urlInfo := mkUrlInfo { uHostname : string; uHost : string; uIsAbs : bool; uRawPath : string }.
Record netlib := mkNetlib {
  nlIP : string -> bool;               (* net.ParseIP(s) != nil *)
  nlAddress : string -> bool;          (* mail.ParseAddress succeeds *)
  nlUrl : string -> option urlInfo;    (* url.Parse *)
  nlRegexp : string -> bool            (* regexp.Compile succeeds *)
}.
Section WithLib.
Variable L : netlib.
(* formats.go 387-398 isIPV6 *)
Definition isIPV6 (str : string) : bool := containsStr ":" str && nlIP L str.
(* strings.LastIndexByte: the text before and after the last separator *)
Fixpoint cutAtLast (sep : ascii) (str : string) : option (string * string) :=
  match str with
  | EmptyString => None
  | String c r =>
      match cutAtLast sep r with
      | Some (a, b) => Some (String c a, b)
      | None => if Ascii.eqb c sep then Some ("", r) else None
      end
  end.
(* formats.go 319-360 isEmail *)
Definition isEmail (str : string) : bool :=
  if (254 <? String.length str)%nat then false
  else match cutAtLast "@" str with
       | None => false
       | Some (local, domain) =>
           if (64 <? String.length local)%nat then false
           else if (2 <=? String.length domain)%nat && isByte "[" (String.get 0 domain) && isByte "]" (lastByte domain) then
             let ip := substring 1 (String.length domain - 2) domain in
             if String.prefix "IPv6:" ip then isIPV6 (substring 5 (String.length ip) ip) else isIPV4 ip
           else isHostname domain && nlAddress L str
       end.
(* formats.go 410-428 urlParse *)
Definition urlParse (str : string) : option urlInfo :=
  match nlUrl L str with
  | None => None
  | Some u =>
      if containsStr ":" (uHostname u) then
        if negb (containsStr "[" (uHost u)) || negb (containsStr "]" (uHost u)) then None
        else if negb (isIPV6 (uHostname u)) then None else Some u
      else Some u
  end.
(* formats.go 400-408 isURI, 430-439 isURIReference *)
Definition isURI (str : string) : bool := match urlParse str with Some u => uIsAbs u | None => false end.
Definition isURIReference (str : string) : bool :=
  match urlParse str with Some _ => negb (containsStr "\" str) | None => false end.
(* formats.go 441-465 isURITemplate *)
Fixpoint braces (depth : Z) (item : string) : bool :=
  match item with
  | EmptyString => depth =? 0
  | String c r =>
      if Ascii.eqb c "{" then (depth + 1 =? 1) && braces (depth + 1) r
      else if Ascii.eqb c "}" then (depth - 1 =? 0) && braces (depth - 1) r
      else braces depth r
  end.
Definition isURITemplate (str : string) : bool :=
  match urlParse str with None => false | Some u => forallb (braces 0) (splitOn "/" (uRawPath u)) end.

(* formats.go 21-43 FormatValidators, with the test for strings at the head of each validator *)
Definition onString (otherwise : bool) (f : string -> bool) (v : json) : bool := match v with JStr str => f str | _ => otherwise end.
Definition formatValidators : list (string * (json -> bool)) :=
  [("date-time", onString false isDateTime); ("date", onString false isDate); ("time", onString true isTime);
   ("duration", onString false isDuration); ("period", onString false isPeriod); ("hostname", onString false isHostname);
   ("email", onString false isEmail); ("ip-address", onString false isIPV4); ("ipv4", onString false isIPV4);
   ("ipv6", onString false isIPV6); ("uri", onString false isURI); ("iri", onString false isURI);
   ("uri-reference", onString false isURIReference); ("uriref", onString false isURIReference);
   ("iri-reference", onString false isURIReference); ("uri-template", onString false isURITemplate);
   ("json-pointer", onString false isJSONPointer); ("relative-json-pointer", onString false isRelativeJSONPointer);
   ("uuid", onString false isUUID); ("regex", onString true (nlRegexp L)); ("unknown", fun _ => true)].
Definition validFormat (name : string) (v : json) : bool :=
  match assoc name formatValidators with Some f => f v | None => false end.
End WithLib.
