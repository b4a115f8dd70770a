(* The generators: what Generate does on every generator struct, with all its random draws, its step
   counter, its reference stack, its retry loops and its panics. *)
From Coq Require Import ZArith List String Bool Lia.
From Flocq Require Import Core BinarySingleNaN.
From Verif Require Import Base Float64 Json Schema Util Rand Options Number.
Import ListNotations.
Open Scope string_scope.
Open Scope Z_scope.

(* ------------------------------------------------------------------ generator trees *)

(* array.go 11-27, the scalar fields of arrayGenerator *)
Record arrCfg : Type := mkArr {
  aDisallowUnevaluated : bool;
  aUnique : bool;
  aMinContains : Z;
  aMinItems : Z;
  aMaxItems : Z;
  aDisallowAdditional : bool }.

(* object.go 12-27, the scalar fields of objectGenerator *)
Record objCfg : Type := mkObj {
  bDisallowAdditional : bool;
  bMinProperties : Z;
  bMaxProperties : Z;
  bRequired : list string }.

(* constraint.go 18-20 multiConstraint (kept as the collection it was compiled from, 131-176),
   combination.go / constraint.go 30-32 oneOfConstraint (a compiled schema is represented by the node
   it was compiled from), if.go 13-21 ifConstraint / multipleIfConstraints *)
Inductive constr (A : Type) : Type :=
| CMulti (c : ccoll)
| COneOf (schemas : list schemaNode)
| CIf (l : list (schemaNode * (option A * option A))).
Arguments CMulti {A}. Arguments COneOf {A}. Arguments CIf {A}.

(* One constructor per generator struct.
   - GArray: tuple, items, additionalItems, contains, unevaluatedItems generators (nil = None)
   - GObject: properties; pattern properties with "has a regex generator" (PatternPropertiesRegex
     non-nil, object.go 145-152); additionalProperties generator.  FallbackGenerator is always
     nullGenerator (object.go 86).
   - GRef: reference.go 9-18; the handler it copies is the reference table of the environment. *)
Inductive gen : Type :=
| GNull
| GBool
| GConst (v : json)
| GEnum (vs : list json)
| GNumber (g : numGen)
| GString (format pattern : string) (minLength maxLength : Z)
| GArray (tuple : list gen) (item additional contains unevaluated : option gen) (c : arrCfg)
| GObject (props : list (string * gen)) (patterns : list (string * (bool * gen)))
          (additional : option gen) (c : objCfg)
| GMulti (gs : list gen)
| GComb (gs : list gen)
| GAllOf (g : gen)
| GRef (doc path : string)
| GConstrained (g : gen) (cs : list (constr gen)).

(* ------------------------------------------------------------------ state and environment *)

(* Ghost events: generation records what it gave up on.  They have no effect on the result. *)
Inductive event : Type :=
| EvCutoff                                       (* a generator returned nil past the cutoff *)
| EvUnchecked                                    (* constraints skipped past the cutoff *)
| EvUnresolvable (doc path : string)
| EvMaxDepth
| EvCyclic (key : string)
| EvUniqueFail
| EvConstraintFail
| EvOneOfFail
| EvIfFail
| EvBadFormat (format : string)
| EvEnter (key : string) (open : list string).   (* a reference was entered with these open *)

(* The mutable part of *GeneratorOptions during one generation: position in the caller's random
   source, position in the process-wide source (funk.Shuffle, faker, regex generators),
   overallComplexity, ReferenceResolver (innermost first), and the ghost log (latest first). *)
Record gst : Type := mkG {
  gPos : nat;
  gGlob : nat;
  gCx : Z;
  gStack : list string;
  gLog : list event }.

Definition initG (pos glob : nat) : gst := mkG pos glob 0 [] [].

(* Everything generation reads: the options after defaulting, the reference table, the two random
   streams, and the third-party functions it calls, as uninterpreted functions:
   faker.Sentence, the faker/time based formats, regex string generators (modelled in Regen.v),
   jsonschema validation of a value against a node, regexp.MatchString, format validators. *)
Record env : Type := mkEnv {
  eOpts : genOptions;
  eRefs : list (string * list (string * gen));
  eRand : nat -> Z;
  eGlob : nat -> Z;
  eSentence : Z -> string;
  eFormat : string -> Z -> string;
  eRegen : string -> Z -> res string;
  eValid : schemaNode -> json -> bool;
  eMatch : string -> string -> bool;
  eIsFormat : string -> json -> bool }.

(* ------------------------------------------------------------------ state monad *)

Definition M (A : Type) : Type := gst -> res (A * gst).
Definition ret {A} (a : A) : M A := fun s => Ok (a, s).
Definition bindM {A B} (m : M A) (k : A -> M B) : M B :=
  fun s => match m s with Ok (a, s') => k a s' | Panic w => Panic w | Timeout => Timeout end.
Definition lift {A} (r : res A) : M A :=
  fun s => match r with Ok a => Ok (a, s) | Panic w => Panic w | Timeout => Timeout end.
Notation "'do' x <- m ;; k" := (bindM m (fun x => k))
  (at level 200, x pattern, m at level 100, k at level 200, right associativity).
Notation "'run' m ;; k" := (bindM m (fun _ => k))
  (at level 200, m at level 100, k at level 200, right associativity).

(* opts.overallComplexity++ *)
Definition tick : M unit := fun s => Ok (tt, mkG (gPos s) (gGlob s) (gCx s + 1) (gStack s) (gLog s)).
Definition emit (e : event) : M unit :=
  fun s => Ok (tt, mkG (gPos s) (gGlob s) (gCx s) (gStack s) (e :: gLog s)).
Definition getCx : M Z := fun s => Ok (gCx s, s).
Definition getStack : M (list string) := fun s => Ok (gStack s, s).
Definition pushRef (k : string) : M unit :=
  fun s => Ok (tt, mkG (gPos s) (gGlob s) (gCx s) (k :: gStack s) (gLog s)).
Definition popRef : M unit :=
  fun s => Ok (tt, mkG (gPos s) (gGlob s) (gCx s) (tl (gStack s)) (gLog s)).

Section Generate.
Variable E : env.
Let opt := eOpts E.

Definition draw : M Z := fun s => Ok (eRand E (gPos s), mkG (S (gPos s)) (gGlob s) (gCx s) (gStack s) (gLog s)).
Definition globDraw : M Z :=
  fun s => Ok (eGlob E (gGlob s), mkG (gPos s) (S (gGlob s)) (gCx s) (gStack s) (gLog s)).

(* n draws at once *)
Definition draws (n : nat) : M (list Z) :=
  fun s => Ok (map (fun i => eRand E (gPos s + i)%nat) (seq 0 n),
               mkG (gPos s + n) (gGlob s) (gCx s) (gStack s) (gLog s)).
Definition globDraws (n : nat) : M (list Z) :=
  fun s => Ok (map (fun i => eGlob E (gGlob s + i)%nat) (seq 0 n),
               mkG (gPos s) (gGlob s + n) (gCx s) (gStack s) (gLog s)).
Definition nthDraw (ds : list Z) (i : nat) : Z := nth i ds 0.

(* random.go 59-67 RandomInt: draws only if min <> max *)
Definition drawInt (mn mx : Z) : M Z :=
  if mn =? mx then ret mn else do d <- draw;; lift (randomInt mn mx d).

(* generator.go 130-136, 144-172 on the current counter *)
Definition cutoff : M bool := do c <- getCx;; ret (shouldCutoff opt c).
Definition minimize : M bool := do c <- getCx;; ret (shouldMinimize opt c).
Definition budget (base : Z) : M Z := do c <- getCx;; ret (scaledRetryBudget opt c base).

(* "overallComplexity++; if ShouldCutoff() return nil", the head of several Generate methods *)
Definition guarded (body : M json) : M json :=
  run tick;; do c <- cutoff;;
  if c then (run emit EvCutoff;; ret JNull) else body.

(* ------------------------------------------------------------------ strings *)

(* string.go 120-127: sentences appended until the length reaches MinLength *)
Fixpoint fillString (fuel : nat) (mn : Z) (acc : string) : M string :=
  match fuel with
  | O => lift Timeout
  | S f =>
      if Z.of_nat (String.length acc) <? mn
      then do d <- globDraw;; fillString f mn (acc ++ eSentence E d)
      else ret acc
  end.

(* string.go 141-168 generateFormat: the formats produced by faker or the clock *)
Definition fakerFormats : list string :=
  ["date-time"; "time"; "date"; "email"; "idn-email"; "hostname"; "idn-hostname"; "ipv4"; "ipv6";
   "uuid"; "uri"; "uri-reference"; "iri"; "iri-reference"].
Definition knownUnsupportedFormats : list string :=
  ["uri-template"; "json-pointer"; "relative-json-pointer"; "regex"].
Definition generateFormat (f : string) : M json :=
  if String.eqb f "duration" then
    do n <- drawInt 0 90;; ret (JStr ("P" ++ itoa n ++ "D"))
  else if mem_string f fakerFormats then
    do d <- globDraw;; ret (JStr (eFormat E f d))
  else
    run emit (EvBadFormat f);;
    ret (JStr ((if mem_string f knownUnsupportedFormats
                then "Known but unsupported format: " else "Unsupported Format: ") ++ f)).

(* string.go 110-135; lengths are byte lengths, the loop is entered with one sentence written *)
Definition genString (format pattern : string) (mn mx : Z) : M json :=
  run tick;;
  if negb (String.eqb format "") then generateFormat format
  else if negb (String.eqb pattern "") then
    do d <- globDraw;; do str <- lift (eRegen E pattern d);; ret (JStr str)
  else
    do d <- globDraw;;
    do str <- fillString (S (Z.to_nat mn)) mn (eSentence E d);;
    ret (JStr (if negb (mx =? 0) && (mx <? Z.of_nat (String.length str))
               then substring 0 (Z.to_nat mx) str else str)).

(* number.go Generate (modelled in Number.v): one draw at most *)
Definition genNumber (g : numGen) : M json :=
  run tick;;
  if numberDraws g then do d <- draw;; lift (numberGenerate g d) else lift (numberGenerate g 0).

(* ------------------------------------------------------------------ arrays *)
Variable G : gen -> M json.         (* generation of the children *)

(* array.go 220-224 *)
Fixpoint genAll (gs : list gen) : M (list json) :=
  match gs with
  | [] => ret []
  | g :: r => do v <- G g;; do vs <- genAll r;; ret (v :: vs)
  end.

(* array.go 306-322 generateConsideringUnique *)
Definition uniqueWarning : string :=
  "Warning: Unable to generate unique item after " ++ itoa (oMaximumUniqueGeneratorAttempts opt)
  ++ " attempts. Recheck passed schema.".
Definition same_text (a b : option enc) : bool :=
  match a, b with Some x, Some y => enc_eqb x y | None, None => true | _, _ => false end.
Fixpoint uniqueTry (n : nat) (g : gen) (seen : list (option enc)) : M (json * bool) :=
  match n with
  | O => run emit EvUniqueFail;; ret (JStr uniqueWarning, false)
  | S n' =>
      do v <- G g;;
      if existsb (same_text (marshal v)) seen then uniqueTry n' g seen else ret (v, true)
  end.
Definition genItem (unique : bool) (g : gen) (data : list json) : M (json * bool) :=
  if unique then uniqueTry (Z.to_nat (oMaximumUniqueGeneratorAttempts opt)) g (map marshal data)
  else do v <- G g;; ret (v, true).

(* array.go 254-263; n is the number of iterations left, i the index *)
Fixpoint containsLoop (n : nat) (i minContains : Z) (unique : bool) (g : gen) (data : list json) : M (list json) :=
  match n with
  | O => ret data
  | S n' =>
      do (v, ok) <- genItem unique g data;;
      if negb ok && (minContains <? i) then ret data
      else containsLoop n' (i + 1) minContains unique g (data ++ [v])%list
  end.

(* array.go 281-291 *)
Fixpoint itemsLoop (fuel : nat) (i n minItems : Z) (unique : bool) (g : gen) (data : list json) : M (list json) :=
  match fuel with
  | O => lift Timeout
  | S f =>
      if (i <? n) || (Z.of_nat (List.length data) <? minItems) then
        do (v, ok) <- genItem unique g data;;
        if negb ok && (minItems <? i) then ret data
        else itemsLoop f (i + 1) n minItems unique g (data ++ [v])%list
      else ret data
  end.

(* array.go 226-238: which generator fills the array; stringGenerator{} is the zero value *)
Definition fillGen (item additional unevaluated : option gen) (unique : bool) : gen :=
  match item, additional, unevaluated with
  | Some g, _, _ => g
  | None, Some g, _ => g
  | None, None, Some g => g
  | None, None, None => if unique then GString "" "" 0 0 else GNull
  end.

(* array.go 211-294 *)
Definition genArray (tuple : list gen) (item additional contains unevaluated : option gen) (c : arrCfg) : M json :=
  guarded (
    do data <- genAll tuple;;
    if aDisallowAdditional c then ret (JArr data)
    else
      let itemGen := fillGen item additional unevaluated (aUnique c) in
      let tupleLength := Z.of_nat (List.length tuple) in
      let minItems := getInt (aMinItems c) (oDefaultArrayMinItems opt) in
      let maxItems0 := getInt (aMaxItems c) (oDefaultArrayMaxItems opt) in
      do data <- match contains with
                 | Some g => let k := getInt (aMinContains c) 1 in
                             containsLoop (Z.to_nat k) 0 k (aUnique c) g data
                 | None => ret data
                 end;;
      let maxItems := if maxItems0 <? minItems then minItems + oDefaultArrayMaxItems opt else maxItems0 in
      let remaining := maxInt2 0 (maxItems - (tupleLength + aMinContains c)) in
      do n <- drawInt 0 remaining;;
      do mini <- minimize;;
      let n := if aDisallowUnevaluated c || mini then 0 else n in
      do data <- itemsLoop (S (Z.to_nat (Z.max n (minItems - Z.of_nat (List.length data))))) 0 n minItems (aUnique c) itemGen data;;
      ret (JArr data)).

(* ------------------------------------------------------------------ objects *)

(* object.go 169-179 and 206-214: the value of a required / optional key *)
Definition genKey (prefix : string) (props : list (string * gen)) (k : string) : M json :=
  match assoc k props with
  | Some g => G g
  | None => do n <- drawInt 0 9999999;; ret (JStr (prefix ++ "_" ++ k ++ "_" ++ itoa n))
  end.
Fixpoint genKeys (prefix : string) (props : list (string * gen)) (ks : list string)
                 (m : list (string * json)) : M (list (string * json)) :=
  match ks with
  | [] => ret m
  | k :: r => do v <- genKey prefix props k;; genKeys prefix props r (massign k v m)
  end.

(* funk.UniqString: first occurrences *)
Fixpoint uniqString_loop (seen : list string) (l : list string) : list string :=
  match l with
  | [] => []
  | x :: r => if mem_string x seen then uniqString_loop seen r
              else x :: uniqString_loop (x :: seen) r
  end.
Definition uniqString (l : list string) : list string := uniqString_loop [] l.

(* random.go 46-51 StringChoiceMultiple: shuffled by the process-wide source, then cut.  The slice
   expression panics when numChoices is out of range. *)
Definition stringChoiceMultiple (l : list string) (n : Z) : M (list string) :=
  do ds <- globDraws (List.length l);;
  if (n <? 0) || (Z.of_nat (List.length l) <? n) then lift (Panic "slice bounds out of range")
  else ret (firstn (Z.to_nat n) (shuffle "" l (nthDraw ds))).

(* object.go 260-275 GeneratePatternProperty *)
Definition genPattern (patterns : list (string * (bool * gen))) : M (string * json) :=
  match patterns with
  | [] => ret ("", JNull)
  | _ =>
      do d <- draw;;
      do (re, (ok, g)) <- lift (choice patterns d);;
      if ok then
        do e <- globDraw;; do k <- lift (eRegen E re e);; do v <- G g;; ret (k, v)
      else ret ("", JNull)
  end.

(* object.go 221-225 *)
Fixpoint patternLoop (n : nat) (patterns : list (string * (bool * gen))) (m : list (string * json)) : M (list (string * json)) :=
  match n with
  | O => ret m
  | S n' => do (k, v) <- genPattern patterns;; patternLoop n' patterns (massign k v m)
  end.

(* object.go 228-231 *)
Fixpoint additionalLoop (n : nat) (i : Z) (g : gen) (m : list (string * json)) : M (list (string * json)) :=
  match n with
  | O => ret m
  | S n' => do v <- G g;; additionalLoop n' (i + 1) g (massign ("additional_" ++ itoa i) v m)
  end.

(* object.go 232-240 *)
Fixpoint fallbackLoop (n : nat) (i mn : Z) (m : list (string * json)) : M (list (string * json)) :=
  match n with
  | O => ret m
  | S n' =>
      if oSuppressFallbackValues opt || (Z.of_nat (List.length m) <? mn)
      then fallbackLoop n' (i + 1) mn m
      else do v <- G GNull;; fallbackLoop n' (i + 1) mn (massign ("fallback_" ++ itoa i) v m)
  end.

(* object.go 251-253 *)
Fixpoint fillerLoop (n : nat) (i : Z) (g : gen) (m : list (string * json)) : M (list (string * json)) :=
  match n with
  | O => ret m
  | S n' => do v <- G g;; fillerLoop n' (i + 1) g (massign ("min_filler_" ++ itoa i) v m)
  end.

(* object.go 242-255 *)
Definition fillMinimum (mn : Z) (additional : option gen) (m : list (string * json)) : M json :=
  let len := Z.of_nat (List.length m) in
  if len <? mn then
    do m' <- fillerLoop (Z.to_nat (mn - len)) len (get_or additional GNull) m;; ret (JObj m')
  else ret (JObj m).

(* object.go 159-258.  The order of funk.Keys is the order of the association list; any other order
   amounts to another shuffle. *)
Definition genObject (props : list (string * gen)) (patterns : list (string * (bool * gen)))
                     (additional : option gen) (c : objCfg) : M json :=
  guarded (
    do m <- genKeys "required" props (bRequired c) [];;
    let optionalKeys := uniqString (bRequired c ++ keys props)%list in
    let mn := getInt (bMinProperties c) (oDefaultObjectMinProperties opt) in
    let mx0 := getInt (bMaxProperties c) (oDefaultObjectMaxProperties opt) in
    let mx := if mx0 <? mn then mn + mx0 else mx0 in
    let nreq := Z.of_nat (List.length (bRequired c)) in
    let minExtras := maxInt2 0 (mn - nreq) in
    let maxExtras := maxInt2 0 (mx - nreq) in
    do target <- drawInt minExtras maxExtras;;
    do mini <- minimize;;
    let target := if mini then minExtras else target in
    do picked <- stringChoiceMultiple optionalKeys (minInt2 (Z.of_nat (List.length optionalKeys)) target);;
    do m <- genKeys "optional" props picked m;;
    let target := target - Z.of_nat (List.length picked) in
    let rounds := Z.to_nat target in
    match patterns with
    | _ :: _ => do m <- patternLoop rounds patterns m;; fillMinimum mn additional m
    | [] =>
        if bDisallowAdditional c then ret (JObj m)
        else match additional with
             | Some g => do m <- additionalLoop rounds 0 g m;; fillMinimum mn additional m
             | None => do m <- fallbackLoop rounds 0 mn m;; fillMinimum mn additional m
             end
    end).

(* ------------------------------------------------------------------ choices *)

(* multiple_type.go 39-42, combination.go 121-123 *)
Definition genOneOf (gs : list gen) : M json :=
  do i <- drawInt 0 (Z.of_nat (List.length gs));;
  match nth_error gs (Z.to_nat i) with
  | Some g => G g
  | None => lift (Panic "index out of range")
  end.

(* ------------------------------------------------------------------ constraints *)

(* constraint.go 131-176, 191-198: all compiled constraint functions accept the value *)
Definition isStrMatching (p : string) (v : json) : bool :=
  match v with JStr s => eMatch E p s | _ => false end.
Definition hasProperty (p : string) (v : json) : bool :=
  match v with JObj m => is_some (assoc p m) | _ => false end.
Definition multiPassed (c : ccoll) (v : json) : bool :=
  forallb (fun p => negb (isStrMatching p v)) (ccRegex c)
  && forallb (fun f => negb (eIsFormat E f v)) (ccFormat c)
  && negb (existsb (same_text (marshal v)) (ccValues c))
  && forallb (fun p => negb (hasProperty p v)) (ccProps c).

(* constraint.go 188: the list of constraints inside the message is left out *)
Definition multiFailure : string := "Failed to generate a valid value for the following constraints".
(* constraint.go 178-189 *)
Fixpoint multiTry (n : nat) (c : ccoll) (g : gen) (v : json) : M json :=
  match n with
  | O => run emit EvConstraintFail;; ret (JStr multiFailure)
  | S n' => if multiPassed c v then ret v else do v' <- G g;; multiTry n' c g v'
  end.

(* combination.go 171-185: exactly one compiled schema accepts *)
Definition oneOfPassed (schemas : list schemaNode) (v : json) : bool :=
  (List.length (filter (fun n => eValid E n v) schemas) =? 1)%nat.
Definition oneOfFailure : string := "Failed to generate a valid value for the following oneOf constraint".
(* combination.go 157-169 *)
Fixpoint oneOfTry (n : nat) (schemas : list schemaNode) (g : gen) (v : json) : M json :=
  match n with
  | O => run emit EvOneOfFail;; ret (JStr oneOfFailure)
  | S n' =>
      run tick;;
      if oneOfPassed schemas v then ret v else do v' <- G g;; oneOfTry n' schemas g v'
  end.

(* if.go 149-175 AttemptToSatisfyIfStatement *)
Definition ifAttempt (c : schemaNode * (option gen * option gen)) (v : json) : M (option json) :=
  let '(cond, (th, el)) := c in
  if eValid E cond v then
    match th with
    | None => ret (Some v)
    | Some g => do w <- G g;; ret (if eValid E cond w then Some w else None)
    end
  else
    match el with
    | None => ret (Some v)
    | Some g => do w <- G g;; ret (if eValid E cond w then None else Some w)
    end.

(* if.go 207-214: one pass over the constraints in the order of the permutation *)
Fixpoint ifPass (idx : list nat) (l : list (schemaNode * (option gen * option gen))) (v : json) : M (option json) :=
  match idx with
  | [] => ret (Some v)
  | i :: r =>
      match nth_error l i with
      | None => lift (Panic "index out of range")
      | Some c =>
          do w <- ifAttempt c v;;
          match w with Some w => ifPass r l w | None => ret None end
      end
  end.
Definition ifFailure : string := "Failed to generate a valid value for the following if constraints".
(* if.go 197-229 *)
Fixpoint ifTry (n : nat) (l : list (schemaNode * (option gen * option gen))) (g : gen) (v : json) : M json :=
  match n with
  | O => run emit EvIfFail;; ret (JStr ifFailure)
  | S n' =>
      run tick;;
      do ds <- draws (List.length l);;
      do w <- ifPass (perm (List.length l) (nthDraw ds)) l v;;
      match w with
      | Some w => ret w
      | None => do v' <- G g;; ifTry n' l g v'
      end
  end.

Definition applyConstr (g : gen) (c : constr gen) (v : json) : M json :=
  match c with
  | CMulti cc => do b <- budget (oMaximumUniqueGeneratorAttempts opt);; multiTry (Z.to_nat b) cc g v
  | COneOf l => do b <- budget (oMaximumOneOfAttempts opt);; oneOfTry (Z.to_nat b) l g v
  | CIf l => do b <- budget (oMaximumIfAttempts opt);; ifTry (Z.to_nat b) l g v
  end.

(* combination.go 196-199 *)
Fixpoint applyAll (g : gen) (cs : list (constr gen)) (v : json) : M json :=
  match cs with
  | [] => ret v
  | c :: r => run tick;; do w <- applyConstr g c v;; applyAll g r w
  end.

(* combination.go 191-202 *)
Definition genConstrained (g : gen) (cs : list (constr gen)) : M json :=
  do v <- G g;;
  do c <- cutoff;;
  if c then (run emit EvUnchecked;; ret v) else applyAll g cs v.

(* ------------------------------------------------------------------ references *)

(* reference_hander.go 113-115 *)
Definition refKey (doc path : string) : string := doc ++ "|" ++ path.
(* reference_hander.go 108-111 *)
Definition lookup (doc path : string) : option gen :=
  match assoc doc (eRefs E) with Some m => assoc path m | None => None end.

(* reference.go 48-74; resolutions are listed outermost first in the messages *)
Definition genRef (doc path : string) : M json :=
  guarded (
    match lookup doc path with
    | None => run emit (EvUnresolvable doc path);;
              ret (JStr ("Unresolvable reference: document '" ++ doc ++ "' with path '" ++ path ++ "'"))
    | Some g =>
        do st <- getStack;;
        if oMaximumReferenceDepth opt <? Z.of_nat (List.length st) then
          run emit EvMaxDepth;;
          ret (JStr ("Maximum reference resolution depth of " ++ itoa (oMaximumReferenceDepth opt)
                     ++ " exceeded: " ++ String.concat (" -> " ++ String (Ascii.ascii_of_nat 10) "") (rev st)))
        else if mem_string (refKey doc path) st && negb (oBypassCyclicReferenceCheck opt) then
          run emit (EvCyclic (refKey doc path));;
          ret (JStr ("Cyclic reference found: " ++ String.concat (" -> " ++ String (Ascii.ascii_of_nat 10) "") (rev st)
                     ++ " " ++ String (Ascii.ascii_of_nat 10) "" ++ " " ++ path ++ " "))
        else
          run emit (EvEnter (refKey doc path) st);;
          run pushRef (refKey doc path);;
          do v <- G g;;
          run popRef;;
          ret v
    end).

(* ------------------------------------------------------------------ one Generate call *)
Definition genStep (g : gen) : M json :=
  match g with
  | GNull => run tick;; ret JNull                                   (* null.go 20-23 *)
  | GBool => do d <- draw;; ret (JBool (randomBool d))              (* boolean.go 17-19 *)
  | GConst v => ret v                                               (* const.go 42-44 *)
  | GEnum vs => run tick;; do d <- draw;; lift (choice vs d)        (* enum.go 53-56 *)
  | GNumber n => genNumber n
  | GString f p mn mx => genString f p mn mx
  | GArray t i a c u cfg => genArray t i a c u cfg
  | GObject p pp a cfg => genObject p pp a cfg
  | GMulti gs => genOneOf gs
  | GComb gs => guarded (genOneOf gs)
  | GAllOf g => G g                                                 (* all_of.go Generate *)
  | GRef doc path => genRef doc path
  | GConstrained g cs => genConstrained g cs
  end.
End Generate.

(* Generate, with fuel bounding the depth of nested Generate calls *)
Fixpoint generate (E : env) (fuel : nat) (g : gen) : M json :=
  match fuel with
  | O => lift Timeout
  | S f => genStep E (generate E f) g
  end.

(* root.go 72-75: options are copied and defaulted, the counter and the stack start afresh *)
Definition withOptions (o : genOptions) (E : env) : env :=
  mkEnv (withDefaults o) (eRefs E) (eRand E) (eGlob E) (eSentence E) (eFormat E) (eRegen E)
        (eValid E) (eMatch E) (eIsFormat E).
Definition rootGenerate (E : env) (o : genOptions) (fuel : nat) (g : gen) (pos glob : nat) : res (json * gst) :=
  generate (withOptions o E) fuel g (initG pos glob).
