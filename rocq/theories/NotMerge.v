(* not.go 100-1124: applying negated schema nodes to a node. *)
From Coq Require Import ZArith List String Bool.
From Flocq Require Import Core BinarySingleNaN.
From Verif Require Import Base Float64 Json Schema Util Number Gen Codec PState Merge.
Import ListNotations.
Open Scope string_scope.
Open Scope Z_scope.

(* parse.go 191-195 typeAll *)
Definition typeAll : list string := ["object"; "array"; "number"; "integer"; "string"; "boolean"; "null"].

(* ------------------------------------------------------------------ types *)

(* json.go 28-37 newMultipleTypeFromSlice *)
Definition typeFromSlice (l : list string) : multipleType :=
  match l with
  | [] => mkMT "" None
  | [t] => mkMT t None
  | _ => mkMT "" (Some l)
  end.

(* not.go 824-845 getNodeTypes *)
Definition nodeTypes (n : schemaNode) (notType : bool) : list string :=
  match sType n with
  | None => if notType then [] else typeAll
  | Some t =>
      if negb (String.eqb (mtSingle t) "") then [mtSingle t]
      else match mtMultiple t with
           | Some (x :: r) => x :: r
           | _ => if notType then [] else typeAll
           end
  end.

(* not.go 847-861 expandNotTypes *)
Definition expandNotTypes (l : list string) : list string :=
  if mem_string "number" l && negb (mem_string "integer" l) then (l ++ ["integer"])%list else l.

(* not.go 863-869 nodeTypeContains *)
Definition typeContains (t : option multipleType) (name : string) : bool :=
  match t with
  | None => false
  | Some t => String.eqb (mtSingle t) name || mem_string name (get_or (mtMultiple t) [])
  end.

(* not.go 770-799 notNodeHasValueConstraints *)
Definition hasValueConstraints (n : schemaNode) : bool :=
  is_some (sMinLength n) || is_some (sMaxLength n) || is_some (sPattern n) || is_some (sFormat n) ||
  is_some (sMinimum n) || is_some (sMaximum n) || is_some (sExclusiveMinimum n) || is_some (sExclusiveMaximum n) || is_some (sMultipleOf n) ||
  is_some (sProperties n) || is_some (sRequired n) || is_some (sMinProperties n) || is_some (sMaxProperties n) ||
  is_some (sItems n) || is_some (sMinItems n) || is_some (sMaxItems n) || is_some (sPrefixItems n) ||
  is_some (sConst n) || is_some (sEnum n).

(* not.go 801-822 resolveType *)
Definition resolveType (n x : schemaNode) : option multipleType :=
  let excluded := expandNotTypes (nodeTypes x true) in
  match filter (fun t => negb (mem_string t excluded && negb (hasValueConstraints x))) (nodeTypes n false) with
  | [] => None
  | l => Some (typeFromSlice l)
  end.

(* ------------------------------------------------------------------ integer bounds *)

(* not.go 871-873; Go ints are 64 bits wide, overflow of the +1/-1 at their ends is not modelled *)
Definition nbMinInt : Z := - 2 ^ 31 + 1.
Definition nbMaxInt : Z := 2 ^ 31 - 2.
(* not.go 1013-1027 minToNil, maxToNil *)
Definition minToNil (v : Z) : option Z := if v <=? nbMinInt + 10 then None else Some v.
Definition maxToNil (v : Z) : option Z := if nbMaxInt - 10 <=? v then None else Some v.

(* not.go 875-935 resolveBoundsInt; the boolean says that "no valid range" was reported *)
Definition boundsInt (mn mx nmn nmx : option Z) : option Z * option Z * bool :=
  match nmn, nmx with
  | None, None => (mn, mx, false)
  | _, _ =>
      match mn, mx with
      | None, None =>
          match nmn, nmx with
          | Some a, _ => (None, maxToNil (a - 1), false)
          | None, Some b => (minToNil (b + 1), None, false)
          | None, None => (None, None, false)
          end
      | _, _ =>
          let x1 := get_or mn nbMinInt in
          let x2 := get_or mx nbMaxInt in
          let y1 := get_or nmn nbMinInt in
          let y2 := match nmx with Some b => b + 1 | None => nbMaxInt end in
          if (y2 <? x1) || (x2 <? y1) then (minToNil x1, maxToNil x2, false)
          else if (y1 <=? x1) && (x2 <=? y2) then (mn, mx, true)
          else if (y1 <=? x1) && (y2 <? x2) then (minToNil (y2 + 1), maxToNil x2, false)
          else (minToNil x1, maxToNil (y1 - 1), false)
      end
  end.

(* not.go 1119-1124 warnField *)
Definition warnField (field : string) : P unit := addErrSub ("/" ++ field) field.
Definition warnIf (b : bool) (field : string) : P unit := if b then warnField field else pret tt.

Definition resolveBoundsInt (maxField : string) (mn mx nmn nmx : option Z) : P (option Z * option Z) :=
  let '(a, b, w) := boundsInt mn mx nmn nmx in
  run* warnIf w maxField in pret (a, b).

(* ------------------------------------------------------------------ number bounds *)

(* not.go 1029-1043 minToNilFloat64, maxToNilFloat64 *)
Definition minToNilF (v off : f64) : option f64 := if fleb v (fadd lowerBound (fmul off (fofZ 10))) then None else Some v.
Definition maxToNilF (v off : f64) : option f64 := if fleb (fsub upperBound (fmul off (fofZ 10))) v then None else Some v.

(* not.go 937-1011 resolveBoundsFloat64: (min, max, alternative min, alternative max, reported) *)
Definition boundsFloat (mn xmn mx xmx nmn nxmn nmx nxmx : option f64) (off : f64)
  : option f64 * option f64 * option f64 * option f64 * bool :=
  let x1 := maxFloatPtr mn (addIfNotNil xmn off) in
  let x2 := minFloatPtr mx (addIfNotNil xmx (fneg off)) in
  let y1 := maxFloatPtr nmn (addIfNotNil nxmn off) in
  let y2 := minFloatPtr nmx (addIfNotNil nxmx (fneg off)) in
  match y1, y2 with
  | None, None => (x1, x2, None, None, false)
  | _, _ =>
      match x1, x2 with
      | None, None =>
          match y1, y2 with
          | Some a, _ => (None, Some (fsub a off), None, None, false)
          | None, Some b => (Some (fadd b off), None, None, None, false)
          | None, None => (None, None, None, None, false)
          end
      | _, _ =>
          let x1v := get_or x1 lowerBound in
          let x2v := get_or x2 upperBound in
          let y1v := get_or y1 lowerBound in
          let y2v := get_or y2 upperBound in
          if fltb y2v x1v || fltb x2v y1v then (minToNilF x1v off, maxToNilF x2v off, None, None, false)
          else if fleb y1v x1v && fleb x2v y2v then (minToNilF x1v off, maxToNilF x2v off, None, None, true)
          else if fleb y1v x1v && fltb y2v x2v then (minToNilF (fadd y2v off) off, maxToNilF x2v off, None, None, false)
          else if fltb x1v y1v && fleb x2v y2v then (minToNilF x1v off, maxToNilF (fsub y1v off) off, None, None, false)
          else (minToNilF x1v off, maxToNilF (fsub y1v off) off,
                minToNilF (fadd y2v off) off, maxToNilF x2v off, false)
      end
  end.

(* not.go 1063-1097 computeValidMultipleOfValues: at most 10000 steps and 200 values *)
Fixpoint validMultiplesLoop (fuel : nat) (found : nat) (v mx mo nmo : f64) : list f64 :=
  match fuel with
  | O => []
  | S f =>
      if fleb v mx then
        if feqb (fmod v nmo) fzero then validMultiplesLoop f found (fadd v mo) mx mo nmo
        else v :: (if (S found <? 200)%nat then validMultiplesLoop f (S found) (fadd v mo) mx mo nmo else [])
      else []
  end.
Definition maxSteps : nat := Z.to_nat 10000.
Definition validMultiples (mn mx mo nmo : f64) : list f64 :=
  let start :=
    if fltb infinitesimal mo then
      let aligned := fmul (fceil (fdiv mn mo)) mo in
      if is_inf aligned || is_nanb aligned then mn else aligned
    else mn in
  validMultiplesLoop maxSteps 0 start mx mo nmo.

(* ------------------------------------------------------------------ the notMerge functions *)

(* not.go 207-220 notApplyType *)
Definition notApplyType (m n x : schemaNode) : P (option schemaNode) :=
  match resolveType n x with
  | None => run* addErr "type" in pret None
  | Some t => pret (Some (set_sType (Some t) m))
  end.

(* a node under construction together with the constraint collection *)
Definition nstate : Type := (schemaNode * ccoll)%type.
Definition emptyColl : ccoll := mkCC [] [] [] [].
Definition addRegex (p : string) (c : ccoll) := mkCC (addKey String.eqb (ccRegex c) p) (ccFormat c) (ccValues c) (ccProps c).
Definition addFormat (f : string) (c : ccoll) := mkCC (ccRegex c) (addKey String.eqb (ccFormat c) f) (ccValues c) (ccProps c).
Definition addValues (l : list (option enc)) (c : ccoll) := mkCC (ccRegex c) (ccFormat c) (addKeys oenc_eqb (ccValues c) l) (ccProps c).
Definition addProps (l : list string) (c : ccoll) := mkCC (ccRegex c) (ccFormat c) (ccValues c) (ccProps c ++ l).

Section NotMerge.
Variable E : penv.
(* notMerge on sub-nodes *)
Variable rec : schemaNode -> schemaNode -> P nstate.

(* not.go 222-266 notApplyString *)
Definition notApplyString (st : nstate) (n x : schemaNode) : P nstate :=
  let '(m, c) := st in
  let* b := resolveBoundsInt "maxLength" (sMinLength n) (sMaxLength n) (sMinLength x) (sMaxLength x) in
  let m := set_sMinLength (fst b) (set_sMaxLength (snd b) (set_sPattern (sPattern n) (set_sFormat (sFormat n) m))) in
  match sPattern x with
  | Some p =>
      if String.eqb (get_or (sPattern m) "") p then run* warnField "not/pattern" in pret (m, c)
      else if mem_string p (ccRegex c) || pxGoRegexOk E p then pret (m, addRegex p c)
      else run* warnField "not/pattern" in pret (m, c)
  | None =>
      match sFormat x with
      | Some f =>
          if String.eqb (get_or (sFormat m) "") f then run* warnField "not/format" in pret (m, c)
          else if mem_string f (ccFormat c) || pxHasFormat E f then pret (m, addFormat f c)
          else run* warnField "not/format" in pret (m, c)
      | None => pret (m, c)
      end
  end.

(* not.go 268-388 notApplyNumberAndInteger.  Lines 348-364 filter an existing newNode.Enum, which is
   always nil at this point (notApplyEnum runs later), so only the else branch is modelled. *)
Definition notApplyNumber (st : nstate) (n x : schemaNode) : P nstate :=
  let '(m, c) := st in
  let isInt := typeContains (sType m) "integer" in
  let off := if isInt then fofZ 1 else infinitesimal in
  let '(mn, mx, amn, amx, w) :=
    boundsFloat (sMinimum n) (sExclusiveMinimum n) (sMaximum n) (sExclusiveMaximum n)
                (sMinimum x) (sExclusiveMinimum x) (sMaximum x) (sExclusiveMaximum x) off in
  run* warnIf w "maximum" in
  let m := set_sMinimum mn (set_sMaximum mx m) in
  let deny := typeContains (sType x) "integer" in
  let mo0 := get_or (sMultipleOf n) fzero in
  let nmo0 := get_or (sMultipleOf x) fzero in
  let mo := if feqb mo0 fzero && isInt && negb deny then fofZ 1 else mo0 in
  let nmo := if feqb nmo0 fzero && deny then fofZ 1 else nmo0 in
  let hasMo := negb (feqb mo fzero) in
  let hasNmo := negb (feqb nmo fzero) in
  if negb hasMo && negb hasNmo then pret (m, c)
  else if hasMo && hasNmo && feqb mo nmo then run* warnField "not/multipleOf" in pret (m, c)
  else if hasMo && hasNmo && feqb (fmod mo nmo) fzero then run* warnField "not/multipleOf" in pret (m, c)
  else if hasNmo && fleb nmo infinitesimal then run* warnField "not/multipleOf" in pret (m, c)
  else if hasNmo then
    let mo := if hasMo then mo else infinitesimal in
    let first := validMultiples (get_or mn lowerBound) (get_or mx upperBound) mo nmo in
    let retry := (match first with [] => true | _ => false end && is_some amn) || is_some amx in
    let vals := if retry then validMultiples (get_or amn lowerBound) (get_or amx upperBound) mo nmo else first in
    if retry && match vals with [] => true | _ => false end
    then run* warnField "not/multipleOf" in pret (m, c)
    else pret (set_sEnum (Some (map JFloat vals)) (set_sMinimum None (set_sMaximum None (set_sMultipleOf None m))), c)
  else pret (set_sMultipleOf (sMultipleOf n) m, c).

(* not.go 390-434 notApplyEnum; a value is written to JSON and read back *)
Definition reread (v : json) : json := get_or (decAny (encAny v)) JNull.
Definition notApplyEnum (st : nstate) (n x : schemaNode) : P nstate :=
  let '(m, c) := st in
  match sEnum n, sEnum x with
  | None, None => pret (m, c)
  | en, ex =>
      let en := get_or en [] in
      let ex := get_or ex [] in
      let nex := map marshal ex in
      let rest :=
        match filter (fun v => negb (mem_enc (marshal v) nex)) en with
        | [] => run* warnField "not/enum" in pret (m, c)
        | l => pret (set_sEnum (Some (map reread l)) m, c)
        end in
      if match en, ex with [], _ :: _ => true | _, _ => false end then
        match sConst n with
        | None => pret (m, addValues nex c)
        | Some v => if mem_enc (marshal v) nex then run* warnField "not/enum" in pret (m, c) else rest
        end
      else rest
  end.

(* not.go 436-467 notApplyConst *)
Definition notApplyConst (st : nstate) (n x : schemaNode) : P nstate :=
  let '(m, c) := st in
  let m := set_sConst (sConst n) m in
  match sConst x with
  | None => pret (m, c)
  | Some w =>
      if match sConst n with Some v => oenc_eqb (marshal v) (marshal w) | None => false end
         || match sEnum m with Some [v] => oenc_eqb (marshal v) (marshal w) | _ => false end
      then run* warnField "not/const" in pret (m, c)
      else pret (m, addValues [marshal w] c)
  end.

(* not.go 652-666 notMergeSubNode *)
Definition notSub (sc : string) (n x : schemaNode) : P schemaNode :=
  run* pushPath sc in
  let* r := rec n x in
  let '(m, c) := r in
  let c := match sConstraints n with Some k => mergeColl c k | None => c end in
  run* popPath sc in
  pret (set_sConstraints (Some c) m).

(* not.go 668-677 notMergeSubNodePtr *)
Definition notSubPtr (sc : string) (n x : option schemaNode) : P (option schemaNode) :=
  match n, x with
  | None, None => pret None
  | _, _ => let* m := notSub sc (get_or n emptyNode) (get_or x emptyNode) in pret (Some m)
  end.

(* not.go 679-719 notMergeItemData *)
Definition notItems (n x : option (itemsData schemaNode)) : P (option (itemsData schemaNode)) :=
  match x with
  | None => pret n
  | Some x =>
      let n := get_or n (mkItems None None false) in
      if itDisallow n && itDisallow x then run* warnField "not/additionalItems" in pret (Some n)
      else if itDisallow n then pret (Some n)
      else
        run* warnIf (is_some (itNodes n) || is_some (itNodes x)) "not/items [As Array]" in
        match itNode n, itNode x with
        | None, None => pret None
        | a, b => let* m := notSub "/not/items" (get_or a emptyNode) (get_or b emptyNode) in
                  pret (Some (mkItems (Some m) None false))
        end
  end.

(* not.go 721-746 notMergeSchemaNodeOrFalse *)
Definition notNof (sc : string) (n x : option (nodeOrFalse schemaNode)) : P (option (nodeOrFalse schemaNode)) :=
  match n, x with
  | None, None => pret None
  | _, _ =>
      let n := get_or n (mkNOF None false) in
      let x := get_or x (mkNOF None false) in
      if nofFalse n then run* warnIf (nofFalse x) "" in pret (Some n)
      else let* m := notSub sc (get_or (nofSchema n) emptyNode) (get_or (nofSchema x) emptyNode) in
           pret (Some (mkNOF (Some m) false))
  end.

(* not.go 748-768 notMergePrefixNodes: positions i, i+1, ... of two lists, [d] for missing nodes *)
Fixpoint notPrefixLoop (i : Z) (d : schemaNode) (n x : list schemaNode) : P (list schemaNode) :=
  match n, x with
  | [], [] => pret []
  | a :: ra, [] =>
      let* m := notSub ("/not/prefixItems/" ++ itoa i) a emptyNode in
      let* r := notPrefixLoop (i + 1) d ra [] in pret (m :: r)
  | [], _ => (fix more (i : Z) (x : list schemaNode) : P (list schemaNode) :=
                match x with
                | [] => pret []
                | b :: rb => let* m := notSub ("/not/prefixItems/" ++ itoa i) d b in
                             let* r := more (i + 1) rb in pret (m :: r)
                end) i x
  | a :: ra, b :: rb =>
      let* m := notSub ("/not/prefixItems/" ++ itoa i) a b in
      let* r := notPrefixLoop (i + 1) d ra rb in pret (m :: r)
  end.
Definition notPrefix (n x : option (list schemaNode)) (items : option (itemsData schemaNode)) : P (option (list schemaNode)) :=
  match n, x with
  | None, None => pret None
  | _, _ =>
      let d := match items with Some it => get_or (itNode it) emptyNode | None => emptyNode end in
      let* r := notPrefixLoop 0 d (get_or n []) (get_or x []) in pret (Some r)
  end.

(* not.go 1099-1110 resolveBool: warnField is called with a nil metadata when both are equal *)
Definition resolveBool (v x : option bool) : P (option bool) :=
  match v, x with
  | Some a, Some b => if Bool.eqb a b then plift (Panic "nil pointer dereference") else pret v
  | _, _ => pret (getPtr v x)
  end.

(* not.go 469-512 notApplyArray *)
Definition notApplyArray (st : nstate) (n x : schemaNode) : P nstate :=
  let '(m, c) := st in
  let* bi := resolveBoundsInt "maxItems" (sMinItems n) (sMaxItems n) (sMinItems x) (sMaxItems x) in
  let* bc := resolveBoundsInt "maxContains" (sMinContains n) (sMaxContains n) (sMinContains x) (sMaxContains x) in
  let clash := match fst bc, snd bi with Some a, Some b => b <? a | _, _ => false end in
  run* warnIf clash "not/minContains" in
  let minc := if clash then snd bi else fst bc in
  let* its := notItems (sItems n) (sItems x) in
  run* warnIf (match sUniqueItems x with Some b => b | None => false end) "not/uniqueItems" in
  let* un := resolveBool (sUniqueItems n) (sUniqueItems x) in
  let* pre := notPrefix (sPrefixItems n) (sPrefixItems x) its in
  let* une := notNof "/not/unevaluatedItems" (sUnevaluatedItems n) (sUnevaluatedItems x) in
  let* con := notSubPtr "/not/contains" (sContains n) (sContains x) in
  pret (set_sMinItems (fst bi) (set_sMaxItems (snd bi) (set_sMinContains minc (set_sMaxContains (snd bc)
        (set_sItems its (set_sUniqueItems un (set_sPrefixItems pre (set_sUnevaluatedItems une (set_sContains con m)))))))), c).

(* not.go 533-556: the merged properties, key by key *)
Fixpoint notPropsLoop (ks : list string) (n x : list (string * schemaNode)) (acc : list (string * schemaNode))
  : P (list (string * schemaNode)) :=
  match ks with
  | [] => pret acc
  | k :: r =>
      match assoc k x with
      | None => notPropsLoop r n x (match assoc k n with Some p => massign k p acc | None => acc end)
      | Some q =>
          let* m := notSub ("/not/properties/" ++ k) (get_or (assoc k n) emptyNode) q in
          notPropsLoop r n x (massign k m acc)
      end
  end.

(* not.go 514-611 notApplyObject *)
Definition notApplyObject (st : nstate) (n x : schemaNode) : P nstate :=
  let '(m, c) := st in
  let* b := resolveBoundsInt "maxProperties" (sMinProperties n) (sMaxProperties n) (sMinProperties x) (sMaxProperties x) in
  let np := get_or (sProperties n) [] in
  let xp := get_or (sProperties x) [] in
  let* props := notPropsLoop (keys np ++ keys xp) np xp [] in
  run* warnIf (match sPatternProperties x with Some (_ :: _) => true | _ => false end) "not/patternProperties" in
  let* addp := notNof "/not/additionalProperties" (sAdditionalProperties n) (sAdditionalProperties x) in
  let req := get_or (sRequired n) [] in
  let gone := filter (fun p => negb (mem_string p req)) (get_or (sRequired x) []) in
  let props := fold_left (fun acc p => mdelete p acc) gone props in
  let c := match gone with [] => c | _ => addProps gone c end in
  let m := set_sMinProperties (fst b) (set_sMaxProperties (snd b) (set_sPatternProperties (sPatternProperties n)
           (set_sAdditionalProperties addp (set_sRequired (sRequired n) m)))) in
  pret (match props with [] => m | _ => set_sProperties (Some props) m end, c).

(* not.go 613-650 applyUnsupportedNotFields *)
Definition warnUnsupported (x : schemaNode) : P unit :=
  run* warnIf (match sDependentRequired x with _ :: _ => true | _ => false end) "not/dependentRequired" in
  run* warnIf (match sDependentSchemas x with _ :: _ => true | _ => false end) "not/dependentSchemas" in
  run* warnIf (is_some (sIf x)) "not/if" in
  run* warnIf (is_some (sThen x)) "not/then" in
  run* warnIf (is_some (sElse x)) "not/else" in
  run* warnIf (match sAllOf x with Some (_ :: _) => true | _ => false end) "not/allOf" in
  run* warnIf (match sAnyOf x with Some (_ :: _) => true | _ => false end) "not/anyOf" in
  warnIf (match sOneOf x with Some (_ :: _) => true | _ => false end) "not/oneOf".

(* not.go 176-202: fields copied from the source node *)
Definition keepFields (n m : schemaNode) : schemaNode :=
  let extra := (sMergedNot n ++ match sNot n with Some y => [y] | None => [] end)%list in
  set_sNot None (set_sMergedIf (sMergedIf n) (set_sMergedNot extra
  (set_sOneOf (sOneOf n) (set_sAnyOf (sAnyOf n) (set_sRef (sRef n) (set_sDefs (sDefs n) (set_sDefinitions (sDefinitions n)
  (set_sId (sId n) (set_sLength (sLength n) (set_sDependentRequired (sDependentRequired n) (set_sDependentSchemas (sDependentSchemas n)
  (set_sIf (sIf n) (set_sThen (sThen n) (set_sElse (sElse n) (set_sConstraints (sConstraints n) m))))))))))))))).

(* not.go 164-205 notMerge: only notApplyType can stop the sequence *)
Definition notStep (n x : schemaNode) : P nstate :=
  let* t := notApplyType emptyNode n x in
  match t with
  | None => pret (emptyNode, emptyColl)
  | Some m =>
      let* st := notApplyString (m, emptyColl) n x in
      let* st := notApplyNumber st n x in
      let* st := notApplyEnum st n x in
      let* st := notApplyConst st n x in
      let* st := notApplyArray st n x in
      let* st := notApplyObject st n x in
      run* warnUnsupported x in
      pret (keepFields n (fst st), snd st)
  end.
End NotMerge.

Fixpoint notMerge (E : penv) (fuel : nat) (n x : schemaNode) : P nstate :=
  match fuel with
  | O => plift Timeout
  | S f => notStep E (notMerge E f) n x
  end.

(* not.go 150-162 applyNotConstraints *)
Fixpoint applyNots (E : penv) (fuel : nat) (n : schemaNode) (c : ccoll) (xs : list schemaNode) : P nstate :=
  match xs with
  | [] => pret (n, c)
  | x :: r =>
      let* st := notMerge E fuel n x in
      applyNots E fuel (fst st) (mergeColl c (snd st)) r
  end.
