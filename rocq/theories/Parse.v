(* Parsing schema nodes into generators: parse.go, root.go, reference_hander.go, all_of.go, combination.go,
   if.go, not.go 54-148, enum.go, const.go, multiple_type.go, string.go, array.go, object.go, schema.go.
   A Go result (generator, error) is [Good generator] or [Bad _]: every function returns nullGenerator or
   nil together with an error. *)
From Coq Require Import ZArith List String Ascii Bool.
From Verif Require Import Base Float64 Json Schema Util Number Gen Codec PState RefPath Merge NotMerge.
Import ListNotations.
Open Scope string_scope.
Open Scope Z_scope.

Definition good {A} (x : A) : P (err A) := pret (Good x).
Definition bad {A} (tag : string) : P (err A) := pret (Bad tag).
(* the generator used when err is dropped *)
Definition orNull (r : err gen) : gen := match r with Good g => g | Bad _ => GNull end.
Definition isBad {A} (r : err A) : bool := match r with Bad _ => true | Good _ => false end.

(* assert.go 8-27 assertLowerUpperBound: true = error *)
Definition badBounds (lower upper : Z) : bool :=
  negb ((lower =? 0) || (upper =? 0)) && ((lower <? 0) || (upper <? 0) || (upper <? lower)).

(* assert.go 29-36 assertNoUnsupported *)
Definition unsupported (n : schemaNode) : bool :=
  match sDependentRequired n, sDependentSchemas n with [], [] => false | _, _ => true end.

(* parse.go 443-494 inferType *)
Definition inferType (n : schemaNode) : string :=
  if is_some (sProperties n) || is_some (sPatternProperties n) || is_some (sMinProperties n) || is_some (sMaxProperties n) ||
     is_some (sRequired n) || match sAdditionalProperties n with Some d => is_some (nofSchema d) | None => false end then "object"
  else if is_some (sPattern n) || is_some (sFormat n) || is_some (sMinLength n) || is_some (sMaxLength n) then "string"
  else if is_some (sMinimum n) || is_some (sMaximum n) || is_some (sExclusiveMinimum n) || is_some (sExclusiveMaximum n) ||
          is_some (sMultipleOf n) then "number"
  else if match sItems n with Some d => is_some (itNode d) | None => false end || is_some (sMinItems n) || is_some (sMaxItems n) ||
          is_some (sContains n) || is_some (sMinContains n) || is_some (sMaxContains n) || is_some (sPrefixItems n) ||
          is_some (sAdditionalItems n) || is_some (sUnevaluatedItems n) then "array"
  else "unknown".

(* strings.Contains *)
Fixpoint containsStr (sub str : string) : bool :=
  String.prefix sub str || match str with EmptyString => false | String _ r => containsStr sub r end.

(* schema.go 24, 59-63 normalisePath *)
Definition isSanitised (c : ascii) : bool :=
  let n := Z.of_nat (nat_of_ascii c) in
  Ascii.eqb c "/" || Ascii.eqb c "#" || Ascii.eqb c "-" || Ascii.eqb c "." || Ascii.eqb c "," ||
  (n =? 9) || (n =? 10) || (n =? 12) || (n =? 13) || (n =? 32).
Fixpoint normalisePath (str : string) : string :=
  match str with
  | EmptyString => EmptyString
  | String c r => String (if isSanitised c then "_"%char else c) (normalisePath r)
  end.

Section Parse.
Variable E : penv.

(* schema.go 46-57 ParseSchemaNode.  The compiled schema is represented by the node it was compiled from.
   Adding a resource under a name that exists already fails (the error is dropped), so the schema
   compiled is then the one added first.
   Simplification: the validity of a node (pxCompile, pxValid) does not depend on the scope it is
   compiled in. *)
Definition compileNode (n : schemaNode) (field : string) : P (err schemaNode) := fun s =>
  let name := scope s ++ normalisePath (pPath s ++ "/" ++ field) in
  let '(eff, s') := match assoc name (pRes s) with
                    | Some old => (old, s)
                    | None => (n, withRes (massign name n (pRes s)) s)
                    end in
  Ok (if pxCompile E eff then Good eff else Bad "compile", s').

(* enum.go 21-50 parseEnum *)
Definition parseEnum (n : schemaNode) : P (err gen) :=
  let* c := compileNode n "enum" in
  match c with
  | Bad e => bad e
  | Good self =>
      match filter (pxValid E self) (get_or (sEnum n) []) with
      | [] => bad "enum"
      | [v] => good (GConst v)
      | l => good (GEnum l)
      end
  end.

(* const.go 15-35 parseConst *)
Definition parseConst (n : schemaNode) (v : json) : P (err gen) :=
  let* c := compileNode n "const" in
  match c with
  | Bad e => bad e
  | Good self => if pxValid E self v then good (GConst v) else bad "const"
  end.

(* string.go 69-108 parseString *)
Definition parseString (n : schemaNode) : P (err gen) :=
  let mn := get_or (sMinLength n) 0 in
  let mx := get_or (sMaxLength n) 0 in
  if is_some (sFormat n) && is_some (sPattern n) then bad "format and pattern"
  else if (mx <? 0) || (mn <? 0) then bad "negative length"
  else if (mx <? mn) && negb (mx =? 0) then bad "minLength > maxLength"
  else if (is_some (sPattern n) || is_some (sFormat n)) && (is_some (sMinLength n) || is_some (sMaxLength n)) then bad "pattern and length"
  else match sPattern n with
       | Some p => if pxRegexOk E p then good (GString (get_or (sFormat n) "") p mn mx) else bad "regex"
       | None => good (GString (get_or (sFormat n) "") "" mn mx)
       end.

(* reference.go 22-43 parseReference *)
Definition parseReference (ref : string) : P (err gen) :=
  if containsStr "/allOf/" ref then bad "ref within allOf"
  else let* r := deferredRef E ref in
       match r with
       | Good (d, p) => good (GRef d p)
       | Bad e => bad e
       end.

(* number.go 51-70, modelled in Number.v *)
Definition parseNum (n : schemaNode) (integer : bool) : P (err gen) :=
  match parseNumber n integer with
  | Bad e => bad e
  | Good (NConst f) => good (GConst (JFloat f))
  | Good (NGen g) => good (GNumber g)
  end.

(* the recursive calls: parseNode, parseSchemaNode, mergeSchemaNodes, applyNotConstraints *)
Variable recN recS : schemaNode -> P (err gen).
Variable mrg : list schemaNode -> P schemaNode.
Variable nots : schemaNode -> list schemaNode -> P nstate.

(* reference_hander.go 44-76 ParseNodeInScope; returns how many resolutions were pushed *)
Fixpoint pushSources (sc : string) (srcs : list schemaNode) : P nat :=
  match srcs with
  | [] => pret O
  | n :: r =>
      match sRef n with
      | None => pushSources sc r
      | Some ref =>
          let* s := pget in
          match resolveRef E s ref with
          | Bad _ => run* addErrSub (sc ++ "/config_ref_resolution_error") "ref" in pushSources sc r
          | Good (d, p) => run* pushRes d p in let* k := pushSources sc r in pret (S k)
          end
      end
  end.
Fixpoint popMany (k : nat) : P unit :=
  match k with O => pret tt | S k' => run* popRes in popMany k' end.
Definition inScope (sc : string) (n : schemaNode) (srcs : list schemaNode) : P (err gen) :=
  run* pushPath sc in
  let* k := pushSources sc srcs in
  let* r := recN n in
  run* popMany k in
  run* popPath sc in
  pret r.

(* object.go 92-110 parseProperties *)
Fixpoint parseProps (l : list (string * schemaNode)) : P (list (string * gen)) :=
  match l with
  | [] => pret []
  | (k, n) :: r =>
      let* g := inScope ("/properties/" ++ k) n [] in
      let* gs := parseProps r in
      pret ((k, orNull g) :: gs)
  end.

(* object.go 127-157 parsePatternProperties *)
Fixpoint parsePatterns (l : list (string * schemaNode)) : P (list (string * (bool * gen))) :=
  match l with
  | [] => pret []
  | (k, n) :: r =>
      let* g := inScope ("/patternProperties/" ++ k) n [] in
      let ok := pxPropRegexOk E k in
      run* (if ok then pret tt else addErrSub ("/regex/" ++ k) "regex") in
      let* gs := parsePatterns r in
      pret ((k, (ok, orNull g)) :: gs)
  end.

(* object.go 42-90 parseObject, 112-125 parseAdditionalProperties *)
Definition parseObject (n : schemaNode) : P (err gen) :=
  let mn := get_or (sMinProperties n) 0 in
  let mx := get_or (sMaxProperties n) 0 in
  let req := get_or (sRequired n) [] in
  let props := get_or (sProperties n) [] in
  let addp := get_or (sAdditionalProperties n) (mkNOF None false) in
  if mn <? 0 then bad "minProperties"
  else if mx <? 0 then bad "maxProperties"
  else if is_some (sMaxProperties n) && (mx <? mn) then bad "minProperties > maxProperties"
  else if is_some (sMaxProperties n) && (mx <? Z.of_nat (List.length req)) then bad "required"
  else if nofFalse addp && negb (is_some (sPatternProperties n)) && (Z.of_nat (List.length props) <? mn) then bad "additionalProperties"
  else
    let* pats := parsePatterns (get_or (sPatternProperties n) []) in
    let* ps := parseProps props in
    let* add := match (if nofFalse addp then None else nofSchema addp) with
                | None => pret None
                | Some sub => let* g := inScope "/additionalProperties" sub [] in pret (Some (orNull g))
                end in
    good (GObject ps pats add (mkObj (nofFalse addp) mn mx req)).

(* array.go 139-188: sub-generators, None = nil *)
Definition optScope (sc : string) (n : option schemaNode) : P (err (option gen)) :=
  match n with
  | None => good None
  | Some sub => let* r := inScope sc sub [] in
                match r with Good g => good (Some g) | Bad e => bad e end
  end.
Fixpoint parseTuple (i : Z) (l : list schemaNode) : P (err (list gen)) :=
  match l with
  | [] => good []
  | n :: r =>
      let* g := inScope ("/prefixItems/" ++ itoa i) n [] in
      match g with
      | Bad e => bad e
      | Good g => let* gs := parseTuple (i + 1) r in
                  match gs with Good gs => good (g :: gs) | Bad e => bad e end
      end
  end.
(* array.go 190-209 parseContainsGeneratorInScope *)
Definition parseContains (n : schemaNode) : P (err (option gen)) :=
  match sContains n with
  | None => good None
  | Some c =>
      let* c' := match sItems n with
                 | Some d => match itNode d with
                             | Some it => let* m := mrg [it; c] in pret (set_sContains None m)
                             | None => pret c
                             end
                 | None => pret c
                 end in
      optScope "/contains" (Some c')
  end.
Definition tupleNodes (n : schemaNode) : list schemaNode :=
  match sPrefixItems n with
  | Some (x :: r) => x :: r
  | _ => match sItems n with Some d => get_or (itNodes d) [] | None => [] end
  end.

(* array.go 41-137 parseArray *)
Definition parseArray (n : schemaNode) : P (err gen) :=
  let minc0 := get_or (sMinContains n) 0 in
  let minc := if (minc0 =? 0) && is_some (sContains n) then 1 else minc0 in
  let maxc := get_or (sMaxContains n) 0 in
  let mni := get_or (sMinItems n) 0 in
  let mxi := get_or (sMaxItems n) 0 in
  let tl := Z.of_nat (List.length (get_or (sPrefixItems n) [])) in
  if badBounds mni mxi then bad "items bounds"
  else if badBounds minc maxc then bad "contains bounds"
  else if badBounds minc mni then bad "minContains"
  else if badBounds (tl + minc) mxi then bad "prefix"
  else if (mxi <? tl) && is_some (sMaxItems n) then bad "tuple"
  else
    let mn := getInt mni minc in
    let mx := getInt mxi (mn + defaultOffset) in
    let itemsFalse := match sItems n with Some d => itDisallow d | None => false end in
    let only := itemsFalse || match sAdditionalItems n with Some d => nofFalse d | None => false end in
    let mn := if only then tl else mn in
    let mx := if only then tl else mx in
    let* it := optScope "/items" (match sItems n with Some d => if itDisallow d then None else itNode d | None => None end) in
    match it with Bad e => bad e | Good it =>
    let* ad := optScope "/additionalItems" (match sAdditionalItems n with Some d => nofSchema d | None => None end) in
    match ad with Bad e => bad e | Good ad =>
    let* ct := parseContains n in
    match ct with Bad e => bad e | Good ct =>
    let* tu := parseTuple 0 (tupleNodes n) in
    match tu with Bad e => bad e | Good tu =>
    let disUn := match sUnevaluatedItems n with Some d => nofFalse d | None => false end in
    let* un := optScope "/unevaluatedItems" (match sUnevaluatedItems n with Some d => if nofFalse d then None else nofSchema d | None => None end) in
    match un with Bad e => bad e | Good un =>
    good (GArray tu it ad ct un (mkArr disUn (get_or (sUniqueItems n) false) minc mn mx itemsFalse))
    end end end end end.

(* parse.go 400-420 parseType *)
Definition parseType (t : string) (n : schemaNode) : P (err gen) :=
  if String.eqb t "object" then parseObject n
  else if String.eqb t "array" then parseArray n
  else if String.eqb t "number" then parseNum n false
  else if String.eqb t "integer" then parseNum n true
  else if String.eqb t "string" then parseString n
  else if String.eqb t "boolean" then good GBool
  else good GNull.

(* multiple_type.go 20-34 parseMultipleType *)
Fixpoint parseTypes (ts : list string) (n : schemaNode) : P (list gen) :=
  match ts with
  | [] => pret []
  | t :: r => let* g := parseType t n in let* gs := parseTypes r n in pret (orNull g :: gs)
  end.
Definition parseMultiple (ts : list string) (n : schemaNode) : P (err gen) :=
  let* gs := parseTypes ts n in good (GMulti gs).

(* all_of.go 31-55 parseAllOf *)
Definition parseAllOf (n : schemaNode) (subs : list schemaNode) : P (err gen) :=
  let nodes := (subs ++ [set_sAllOf None n])%list in
  let* m := mrg nodes in
  let* r := inScope "/allOf" m nodes in
  match r with Good g => good (GAllOf g) | Bad e => bad e end.

(* combination.go 48-79: one generator per branch *)
Fixpoint parseBranches (one : bool) (i : Z) (n : schemaNode) (l : list schemaNode) : P (list gen) :=
  match l with
  | [] => pret []
  | sub :: r =>
      let* base := mrg [n] in
      let base := if one then set_sOneOf None base else set_sAnyOf None base in
      let* m := mrg [base; sub] in
      let sc := (if one then "/oneOf/" else "/anyOf/") ++ itoa i in
      let* g := inScope sc m [sub] in
      run* (if isBad g then addErrSub sc "branch" else pret tt) in
      let* gs := parseBranches one (i + 1) n r in
      pret (orNull g :: gs)
  end.
Fixpoint mergeEach (l : list schemaNode) : P (list schemaNode) :=
  match l with
  | [] => pret []
  | n :: r => let* m := mrg [n] in let* ms := mergeEach r in pret (m :: ms)
  end.
(* combination.go 133-155 newOneOfConstraint *)
Fixpoint compileBranches (i : Z) (l : list schemaNode) : P (list schemaNode) :=
  match l with
  | [] => pret []
  | n :: r =>
      let path := "oneOf/" ++ itoa i in
      let* c := compileNode n path in
      match c with
      | Bad _ => run* addErrSub path "compile" in compileBranches (i + 1) r
      | Good e => let* es := compileBranches (i + 1) r in pret (e :: es)
      end
  end.
(* combination.go 33-114 parseCombination *)
Definition parseCombination (n : schemaNode) : P (err gen) :=
  let oneOf := get_or (sOneOf n) [] in
  let one := match oneOf with [] => false | _ => true end in
  let* gs := parseBranches one 0 n (if one then oneOf else get_or (sAnyOf n) []) in
  match oneOf with
  | _ :: _ :: _ =>
      let* ms := mergeEach oneOf in
      let* es := compileBranches 0 ms in
      good (GConstrained (GComb gs) [COneOf es])
  | _ => match gs with
         | [g] => good g
         | [] => bad "no branch"
         | _ => good (GComb gs)
         end
  end.

(* not.go 114-148 flattenAndPartitionNotNodes: (single negations, contents of double negations) *)
Fixpoint partitionNots (i : Z) (l : list schemaNode) : P (list schemaNode * list schemaNode) :=
  match l with
  | [] => pret ([], [])
  | raw :: r =>
      let sc := "/not/" ++ itoa i in
      run* pushPath sc in
      let* flat := mrg [emptyNode; raw] in
      run* popPath sc in
      match sNot flat with
      | Some inner =>
          let sc2 := sc ++ "/not" in
          run* pushPath sc2 in
          let* fi := mrg [emptyNode; inner] in
          run* popPath sc2 in
          let* p := partitionNots (i + 1) r in
          pret (fst p, fi :: snd p)
      | None => let* p := partitionNots (i + 1) r in pret (flat :: fst p, snd p)
      end
  end.
(* not.go 99-112 collectNotNodes *)
Definition collectNots (n : schemaNode) : list schemaNode :=
  (match sNot n with Some x => [x] | None => [] end ++ sMergedNot n)%list.
(* not.go 54-97 parseNot *)
Definition parseNot (n : schemaNode) : P (err gen) :=
  let* p := partitionNots 0 (collectNots n) in
  let '(singles, doubles) := p in
  let n := set_sNot None (set_sMergedNot [] n) in
  let* n := match doubles with [] => pret n | _ => mrg (n :: doubles) end in
  match singles with
  | [] => recS n
  | _ =>
      let* flat := mrg [n] in
      let* st := nots flat singles in
      let* r := recN (fst st) in
      match r with
      | Bad e => bad e
      | Good g => good (GConstrained g [CMulti (snd st)])
      end
  end.

(* if.go 85-107 parseIfBody *)
Definition parseIfBody (field : string) (parent : schemaNode) (body : option schemaNode) : P (option gen) :=
  match body with
  | None => pret None
  | Some b =>
      let* m := mrg [parent; b] in
      let* r := inScope field m [b] in
      match r with
      | Good g => pret (Some g)
      | Bad _ => run* warnField field in pret None
      end
  end.
(* if.go 119-143 Compile *)
Definition compileIf (n : schemaNode) (field : string) (st : ifStmt schemaNode) : P (err (schemaNode * (option gen * option gen))) :=
  match ifIf st with
  | None => bad "no if"
  | Some c =>
      match ifThen st, ifElse st with
      | None, None => bad "no then or else"
      | _, _ =>
          let* s := pget in
          let* k := compileNode c (pPath s ++ "/" ++ field) in
          match k with
          | Bad e => bad e
          | Good eff =>
              let* t := parseIfBody "/then" n (ifThen st) in
              let* e := parseIfBody "/else" n (ifElse st) in
              good (eff, (t, e))
          end
      end
  end.
Fixpoint compileIfs (i : Z) (n : schemaNode) (l : list (ifStmt schemaNode)) : P (list (schemaNode * (option gen * option gen))) :=
  match l with
  | [] => pret []
  | st :: r =>
      let* c := compileIf n ("/if/" ++ itoa i) st in
      match c with
      | Bad _ => run* addErrSub ("if/" ++ itoa i ++ "/config_compile_error") "if" in compileIfs (i + 1) n r
      | Good k => let* ks := compileIfs (i + 1) n r in pret (k :: ks)
      end
  end.
(* if.go 41-83 parseIf *)
Definition parseIf (n : schemaNode) : P (err gen) :=
  let* s := pget in
  let ifs := (sMergedIf n ++ match sIf n with Some _ => [newIf n (pPath s)] | None => [] end)%list in
  let n := set_sIf None (set_sThen None (set_sElse None (set_sMergedIf [] n))) in
  let* r := recS n in
  match r with
  | Bad e => bad e
  | Good g =>
      match ifs with
      | [] => good g
      | _ =>
          let* cs := compileIfs 0 n ifs in
          match cs with
          | [] => run* addErrSub "/if/config_compile_error" "if" in good g
          | _ => good (GConstrained g [CIf cs])
          end
      end
  end.

(* parse.go 333-398 parseSchemaNode.  Simplification: line 392 also writes typeAll into the Type object
   the node shares with its copies; only this node's own parse sees it here. *)
Definition schemaStep (n : schemaNode) : P (err gen) :=
  if unsupported n then bad "unsupported"
  else match sRef n with Some ref => parseReference ref | None =>
  match sAllOf n with Some subs => parseAllOf n subs | None =>
  if is_some (sOneOf n) || is_some (sAnyOf n) then parseCombination n
  else if is_some (sNot n) || match sMergedNot n with [] => false | _ => true end then parseNot n
  else if is_some (sIf n) || match sMergedIf n with [] => false | _ => true end then parseIf n
  else match sEnum n with Some (_ :: _) => parseEnum n | _ =>
  match sConst n with Some v => parseConst n v | None =>
  match (match sType n with Some t => mtMultiple t | None => None end) with
  | Some ts => parseMultiple ts n
  | None =>
      match sType n with
      | Some t => if negb (String.eqb (mtSingle t) "") then parseType (mtSingle t) n
                  else if String.eqb (inferType n) "unknown" then parseMultiple typeAll n else parseType (inferType n) n
      | None => if String.eqb (inferType n) "unknown" then parseMultiple typeAll n else parseType (inferType n) n
      end
  end end end end end.

(* parse.go 291-331 parseNode *)
Definition nodeStep (n : schemaNode) : P (err gen) :=
  let* s := pget in
  run* pmod (withDepth (pDepth s + 1)) in
  let* r := if pxMaxDepth E <? pDepth s + 1 then bad "maximum parse depth"
            else
              run* pmod (fun s => withDeep (Z.max (pDeep s) (pDepth s)) s) in
              let* r := recS n in
              run* (if isBad r then addErr "parse" else pret tt) in
              let g := orNull r in
              run* match sId n with Some i => addIdRef i g | None => pret tt end in
              run* addRef g in
              match sConstraints n with
              | Some c => good (GConstrained g [CMulti c])
              | None => pret r
              end in
  let* s' := pget in
  run* pmod (withDepth (pDepth s' - 1)) in
  pret r.
End Parse.

(* One fuel for every recursion: [true] is parseSchemaNode, [false] is parseNode. *)
Fixpoint parseF (E : penv) (fuel : nat) (schema : bool) (n : schemaNode) : P (err gen) :=
  match fuel with
  | O => plift Timeout
  | S f =>
      if schema
      then schemaStep E (parseF E f false) (parseF E f true) (merge E f) (fun n => applyNots E f n emptyColl) n
      else nodeStep E (parseF E f true) n
  end.
Definition parseNode (E : penv) (fuel : nat) : schemaNode -> P (err gen) := parseF E fuel false.

Section Root.
Variable E : penv.
Variable fuel : nat.

(* root.go 52-71 parseDefinitions *)
Fixpoint parseDefs (path : string) (l : list (string * schemaNode)) : P (list (string * gen)) :=
  match l with
  | [] => pret []
  | (k, n) :: r =>
      let* g := inScope E (parseNode E fuel) ("/" ++ path ++ "/" ++ k) n [set_sRef (Some ("#/" ++ path ++ "/" ++ k)) emptyNode] in
      let* gs := parseDefs path r in
      pret ((k, orNull g) :: gs)
  end.

(* root.go 38-50 parseRoot *)
Definition parseRoot (n : schemaNode) : P (err gen) :=
  let* _ := parseDefs "$defs" (get_or (sDefs n) []) in
  let* _ := parseDefs "definitions" (get_or (sDefinitions n) []) in
  parseNode E fuel n.

(* document.go 426-451 ParseNextDocument *)
Definition parseNext (id : string) (rest : list string) : P unit :=
  run* pmod (fun s => withQueue rest (withParsing id (withResolving id s))) in
  let* d := resolveDocument E id in
  let* ok := match d with
             | Bad _ => pret false
             | Good n =>
                 run* pmod (fun s => withDone (massign id true (pDone s)) s) in
                 let* r := parseRoot n in pret (negb (isBad r))
             end in
  if ok then pret tt else addErrSub "document_parse_error" "document".

(* parse.go 271-276: the queue of documents *)
Fixpoint drain (k : nat) : P unit :=
  match k with
  | O => plift Timeout
  | S k' =>
      let* s := pget in
      match pQueue s with
      | [] => pret tt
      | id :: rest => run* parseNext id rest in drain k'
      end
  end.

(* document.go 58-118 newDocumentResolver and parse.go 255-267: the initial state for the root document.
   [parsing] is opts.RelativeTo after defaulting, [rootId] the id the root document is stored under: both
   are the caller's RelativeTo if that is set; otherwise file://<cwd>/ and a cleaned path below it. *)
Definition initP (parsing rootId : string) (n : schemaNode) : pst :=
  mkP "#" [] [] 0 [] [(rootId, n)] [] parsing "" [(rootId, true)]
      (fold_left (fun acc kv => massign (fst kv) (snd kv) acc) (collectIds E (baseURI E rootId n) rootId n) [])
      [(parsing, n)] 0 [].

(* parse.go 237-280 ParseSchema after decoding: the root generator, its error flag and the final state.
   Not modelled: AddResource failing for the root document. *)
Definition parseDoc (parsing rootId : string) (n : schemaNode) : res (err gen * pst) :=
  (let* r := parseRoot n in run* drain fuel in pret r) (initP parsing rootId n).
End Root.
