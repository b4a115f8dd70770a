(* The parser's state (parse.go 70-93 parserMetadata and the objects it points to) and the document
   resolver (document.go). *)
From Coq Require Import ZArith List String Ascii Bool Lia.
From Verif Require Import Base Float64 Json Schema Util Number Gen Codec.
Import ListNotations.
Open Scope string_scope.
Open Scope Z_scope.

(* ------------------------------------------------------------------ state *)

(* referenceHandler.CurrentPath and References, errorCollection.Errors (latest first, with the message
   reduced to a tag), parserMetadata.ParseDepth, referenceResolver.resolutions (innermost first),
   documentResolver's documents, externalDocumentsThatNeedParsing, documentCurrentlyBeingParsedId,
   documentCurrentlyBeingResolvedId, parsedExternalDocuments, idAliases, and the resources added to the
   schema compiler (schema.go 14-17).  Two fields are ghosts: pDeep, the deepest level at which a node was
   parsed, and pLog, the calls of fetchDocument (document currently parsed, document id), latest first.
   Simplification: each reference keeps its generator only (reference_hander.go 15 also keeps the node,
   which is never read). *)
Record pst : Type := mkP {
  pPath : string;
  pRefs : list (string * list (string * gen));
  pErrs : list ((string * string) * string);
  pDepth : Z;
  pStack : list string;
  pDocs : list (string * schemaNode);
  pQueue : list string;
  pParsing : string;
  pResolving : string;
  pDone : list (string * bool);
  pAliases : list (string * (string * string));
  pRes : list (string * schemaNode);
  pDeep : Z;
  pLog : list (string * string) }.

(* What parsing reads: MaxParseDepth, whether any document fetcher is enabled, and the external code as
   functions: fetcher selection plus resolveDocumentId (document currently parsed, current scope, document
   part of the ref), fetchDocument (document currently parsed, document id), resolveRelativeURI
   (document.go 401-413, "" on failure), isAbsoluteURI (415-419), newRegexGenerator succeeding for string
   patterns and for property patterns (regex.go 11-19), regexp.Compile succeeding, jsonschema.Compile
   succeeding on a node, validation of a value against a compiled node, formats with a validator
   (internal/jsonschema/formats.go 17-40). *)
Record penv : Type := mkPE {
  pxMaxDepth : Z;
  pxFetchers : bool;
  pxResolveId : string -> string -> string -> option string;
  pxFetch : string -> string -> option schemaNode;
  pxRelURI : string -> string -> string;
  pxIsAbs : string -> bool;
  pxRegexOk : string -> bool;
  pxPropRegexOk : string -> bool;
  pxGoRegexOk : string -> bool;
  pxCompile : schemaNode -> bool;
  pxValid : schemaNode -> json -> bool;
  pxHasFormat : string -> bool }.

Definition P (A : Type) : Type := pst -> res (A * pst).
Definition pret {A} (a : A) : P A := fun s => Ok (a, s).
Definition pbind {A B} (m : P A) (k : A -> P B) : P B :=
  fun s => match m s with Ok (a, s') => k a s' | Panic w => Panic w | Timeout => Timeout end.
Definition plift {A} (r : res A) : P A :=
  fun s => match r with Ok a => Ok (a, s) | Panic w => Panic w | Timeout => Timeout end.
Definition pget : P pst := fun s => Ok (s, s).
Notation "'let*' x := m 'in' k" := (pbind m (fun x => k)) (at level 200, x pattern, m at level 100, k at level 200, right associativity).
Notation "'run*' m 'in' k" := (pbind m (fun _ => k)) (at level 200, m at level 100, k at level 200, right associativity).

Definition withPath (p : string) (s : pst) : pst := mkP p (pRefs s) (pErrs s) (pDepth s) (pStack s) (pDocs s) (pQueue s) (pParsing s) (pResolving s) (pDone s) (pAliases s) (pRes s) (pDeep s) (pLog s).
Definition withRefs (r : list (string * list (string * gen))) (s : pst) : pst := mkP (pPath s) r (pErrs s) (pDepth s) (pStack s) (pDocs s) (pQueue s) (pParsing s) (pResolving s) (pDone s) (pAliases s) (pRes s) (pDeep s) (pLog s).
Definition withErrs (e : list ((string * string) * string)) (s : pst) : pst := mkP (pPath s) (pRefs s) e (pDepth s) (pStack s) (pDocs s) (pQueue s) (pParsing s) (pResolving s) (pDone s) (pAliases s) (pRes s) (pDeep s) (pLog s).
Definition withDepth (d : Z) (s : pst) : pst := mkP (pPath s) (pRefs s) (pErrs s) d (pStack s) (pDocs s) (pQueue s) (pParsing s) (pResolving s) (pDone s) (pAliases s) (pRes s) (pDeep s) (pLog s).
Definition withStack (k : list string) (s : pst) : pst := mkP (pPath s) (pRefs s) (pErrs s) (pDepth s) k (pDocs s) (pQueue s) (pParsing s) (pResolving s) (pDone s) (pAliases s) (pRes s) (pDeep s) (pLog s).
Definition withDocs (d : list (string * schemaNode)) (s : pst) : pst := mkP (pPath s) (pRefs s) (pErrs s) (pDepth s) (pStack s) d (pQueue s) (pParsing s) (pResolving s) (pDone s) (pAliases s) (pRes s) (pDeep s) (pLog s).
Definition withQueue (q : list string) (s : pst) : pst := mkP (pPath s) (pRefs s) (pErrs s) (pDepth s) (pStack s) (pDocs s) q (pParsing s) (pResolving s) (pDone s) (pAliases s) (pRes s) (pDeep s) (pLog s).
Definition withParsing (d : string) (s : pst) : pst := mkP (pPath s) (pRefs s) (pErrs s) (pDepth s) (pStack s) (pDocs s) (pQueue s) d (pResolving s) (pDone s) (pAliases s) (pRes s) (pDeep s) (pLog s).
Definition withResolving (d : string) (s : pst) : pst := mkP (pPath s) (pRefs s) (pErrs s) (pDepth s) (pStack s) (pDocs s) (pQueue s) (pParsing s) d (pDone s) (pAliases s) (pRes s) (pDeep s) (pLog s).
Definition withDone (d : list (string * bool)) (s : pst) : pst := mkP (pPath s) (pRefs s) (pErrs s) (pDepth s) (pStack s) (pDocs s) (pQueue s) (pParsing s) (pResolving s) d (pAliases s) (pRes s) (pDeep s) (pLog s).
Definition withAliases (a : list (string * (string * string))) (s : pst) : pst := mkP (pPath s) (pRefs s) (pErrs s) (pDepth s) (pStack s) (pDocs s) (pQueue s) (pParsing s) (pResolving s) (pDone s) a (pRes s) (pDeep s) (pLog s).
Definition withRes (r : list (string * schemaNode)) (s : pst) : pst := mkP (pPath s) (pRefs s) (pErrs s) (pDepth s) (pStack s) (pDocs s) (pQueue s) (pParsing s) (pResolving s) (pDone s) (pAliases s) r (pDeep s) (pLog s).
Definition withDeep (d : Z) (s : pst) : pst := mkP (pPath s) (pRefs s) (pErrs s) (pDepth s) (pStack s) (pDocs s) (pQueue s) (pParsing s) (pResolving s) (pDone s) (pAliases s) (pRes s) d (pLog s).
Definition withLog (x : list (string * string)) (s : pst) : pst := mkP (pPath s) (pRefs s) (pErrs s) (pDepth s) (pStack s) (pDocs s) (pQueue s) (pParsing s) (pResolving s) (pDone s) (pAliases s) (pRes s) (pDeep s) x.
Definition pmod (f : pst -> pst) : P unit := fun s => Ok (tt, f s).

(* error.go 27-39 AddErrorWithSubpath, AddError.  Overwriting an entry of the Go map keeps its key, so
   the set of keys of pErrs is the set of recorded errors. *)
Definition addErrSub (sub tag : string) : P unit := pmod (fun s => withErrs (((pParsing s, pPath s ++ sub), tag) :: pErrs s) s).
Definition addErr (tag : string) : P unit := addErrSub "" tag.
(* merge.go 378-380 *)
Definition warnMerge (field : string) : P unit := addErrSub "/config_merge_error" field.

(* reference_hander.go 77-83 PushToPath, PopFromPath *)
Definition pushPath (part : string) : P unit := pmod (fun s => withPath (pPath s ++ part) s).
Definition popPath (part : string) : P unit :=
  pmod (fun s => withPath (substring 0 (String.length (pPath s) - String.length part) (pPath s)) s).

(* reference_hander.go 85-103 AddReference, AddIdReference *)
Definition addIdRef (path : string) (g : gen) : P unit :=
  pmod (fun s => withRefs (massign (pParsing s) (massign path g (get_or (assoc (pParsing s) (pRefs s)) [])) (pRefs s)) s).
Definition addRef (g : gen) : P unit := fun s => addIdRef (pPath s) g s.

(* reference_hander.go 115-135 referenceResolver; entries are "document|path" *)
Definition pushRes (doc path : string) : P unit := pmod (fun s => withStack (refKey doc path :: pStack s) s).
Definition popRes : P unit := pmod (fun s => withStack (tl (pStack s)) s).
Definition hasResolved (s : pst) (doc path : string) : bool := mem_string (refKey doc path) (pStack s).

(* strings.SplitN(res, "|", 2)[0] *)
Fixpoint beforeChar (c : ascii) (str : string) : string :=
  match str with
  | EmptyString => EmptyString
  | String d r => if Ascii.eqb d c then EmptyString else String d (beforeChar c r)
  end.
Definition currentResolutionDoc (s : pst) : string :=
  match pStack s with [] => "" | k :: _ => beforeChar "|" k end.

(* document.go 125-132 GetCurrentScope *)
Definition scope (s : pst) : string := if String.eqb (pResolving s) "" then pParsing s else pResolving s.
(* document.go 232-234 SetDocumentBeingResolved *)
Definition setResolving (d : string) : P unit := pmod (withResolving d).

(* ------------------------------------------------------------------ references as text *)

(* document.go 53 documentRegex: everything before the first '#' is the document, the rest the path; "."
   does not match a newline, so a newline in the path means no match at all (None). *)
Fixpoint splitHash (r : string) : string * string :=
  match r with
  | EmptyString => (EmptyString, EmptyString)
  | String c rest =>
      if Ascii.eqb c "#" then (EmptyString, r)
      else let '(d, p) := splitHash rest in (String c d, p)
  end.
Fixpoint hasChar (c : ascii) (str : string) : bool :=
  match str with EmptyString => false | String d r => Ascii.eqb d c || hasChar c r end.
Definition matchRef (r : string) : option (string * string) :=
  let '(d, p) := splitHash r in
  if hasChar "010" p then None else Some (d, p).
Definition refDoc (r : string) : string := match matchRef r with Some (d, _) => d | None => "" end.
Definition refPath (r : string) : string :=
  match matchRef r with Some (_, p) => if String.eqb p "" then "#" else p | None => "#" end.

(* document.go 510-519 composeJsonPointerPaths; refPath always starts with '#' *)
Definition composePaths (alias path : string) : string :=
  if String.eqb path "#" || String.eqb path "" then alias
  else alias ++ match path with EmptyString => "" | String _ r => r end.

Section Resolver.
Variable E : penv.

(* document.go 478-508 resolveDocumentRef *)
Definition resolveDocRef (s : pst) (doc path : string) : err (string * string) :=
  let resolved := pxRelURI E (scope s) doc in
  match (if String.eqb resolved "" then None else assoc resolved (pAliases s)) with
  | Some (d, p) => Good (d, composePaths p path)
  | None =>
      if negb (pxFetchers E) then Good (scope s, path)
      else match pxResolveId E (pParsing s) (scope s) doc with
           | Some d => Good (d, path)
           | None => Bad "resolve document id"
           end
  end.

(* document.go 138-152 ResolveDocumentIdAndPath *)
Definition resolveRef (s : pst) (ref : string) : err (string * string) :=
  if String.eqb (refDoc ref) "" then Good (scope s, refPath ref)
  else resolveDocRef s (refDoc ref) (refPath ref).

(* document.go 262-270 pathWouldRequireNewDocumentParsed *)
Definition needsParsing (s : pst) (doc : string) : bool :=
  match assoc doc (pDone s) with Some true => false | _ => true end.

(* document.go 236-260 HandleDeferredReferenceResolution *)
Definition deferredRef (ref : string) : P (err (string * string)) := fun s =>
  if String.eqb (refDoc ref) "" then Ok (Good (scope s, refPath ref), s)
  else match resolveDocRef s (refDoc ref) (refPath ref) with
       | Bad m => Ok (Bad m, s)
       | Good (d, p) =>
           Ok (Good (d, p),
               if negb (mem_string d (pQueue s)) && needsParsing s d
               then withQueue (pQueue s ++ [d]) s else s)
       end.

(* ------------------------------------------------------------------ documents *)

(* walk.go 8-32 walkSchema, threading the visitor's state *)
Fixpoint walkJson {A} (visit : list (string * json) -> string -> A -> A) (j : json) (path : string) (a : A) : A :=
  match j with
  | JObj m =>
      (fix members (l : list (string * json)) (a : A) : A :=
         match l with
         | [] => a
         | (k, v) :: r =>
             members r
               (match v with
                | JObj _ => walkJson visit v (path ++ "/" ++ k) a
                | JArr xs =>
                    (fix elems (xs : list json) (i : Z) (a : A) : A :=
                       match xs with
                       | [] => a
                       | x :: r' => elems r' (i + 1)
                           (match x with JObj _ => walkJson visit x (path ++ "/" ++ k ++ "/" ++ itoa i) a | _ => a end)
                       end) xs 0 a
                | _ => a
                end)
         end) m (visit m path a)
  | _ => a
  end.

(* document.go 385-399 nearestBaseURI: strip the last "/..." until some prefix has a base *)
Fixpoint cutLast (str : string) : option string :=
  match str with
  | EmptyString => None
  | String c r =>
      match cutLast r with
      | Some p => Some (String c p)
      | None => if Ascii.eqb c "/" then Some EmptyString else None
      end
  end.
Fixpoint nearestBase (fuel : nat) (bases : list (string * string)) (path : string) : string :=
  match fuel with
  | O => get_or (assoc "" bases) ""
  | S f =>
      match assoc path bases with
      | Some b => b
      | None => match cutLast path with Some p => nearestBase f bases p | None => get_or (assoc "" bases) "" end
      end
  end.

(* document.go 343-383 collectSubSchemaIds, on the node written back to JSON *)
Definition collectIds (base docId : string) (n : schemaNode) : list (string * (string * string)) :=
  snd (walkJson
    (fun m path acc =>
       let '(bases, result) := acc in
       match assoc "$id" m with
       | Some (JStr idStr) =>
           if String.eqb idStr "" then acc else
           let resolved := pxRelURI E (nearestBase (S (String.length path)) bases path) idStr in
           if String.eqb resolved "" then acc else
           let bases' := massign path resolved bases in
           if String.eqb path "" then (bases', result)
           else match assoc resolved result with
                | Some _ => (bases', result)
                | None => (bases', massign resolved (docId, "#" ++ path) result)
                end
       | _ => acc
       end) (encodeNode n) "" ([("", base)], [])).

(* the base URI of a document: document.go 105-108, 333-336 *)
Definition baseURI (docId : string) (n : schemaNode) : string :=
  match sId n with Some i => if pxIsAbs E i then i else docId | None => docId end.

(* document.go 319-341 addDocument: an alias that exists already is kept *)
Definition addAliases (fresh : list (string * (string * string))) (old : list (string * (string * string))) :=
  fold_left (fun acc kv => match assoc (fst kv) acc with Some _ => acc | None => massign (fst kv) (snd kv) acc end) fresh old.
Definition addDocument (docId : string) (n : schemaNode) : P unit := pmod (fun s =>
  match assoc docId (pDocs s) with
  | Some _ => s
  | None =>
      withAliases (addAliases (collectIds (baseURI docId n) docId n) (pAliases s))
        (withDone (massign docId false (pDone s)) (withDocs (massign docId n (pDocs s)) s))
  end).

(* document.go 453-476 resolveDocument *)
Definition resolveDocument (ref : string) : P (err schemaNode) := fun s =>
  if String.eqb (refDoc ref) "" || negb (pxFetchers E) then Ok (Bad "no document or no fetchers", s)
  else let s' := withLog ((pParsing s, refDoc ref) :: pLog s) s in
       match pxFetch E (pParsing s) (refDoc ref) with
       | None => Ok (Bad "fetch failed", s')
       | Some n => (let* _ := addDocument (refDoc ref) n in pret (Good n)) s'
       end.

(* ------------------------------------------------------------------ rewriting references *)

(* document.go 187-230: a member "$ref" that is not a string stops the traversal of that object.
   The order of the members stands for Go's map iteration order. *)
Fixpoint rewriteJson (s : pst) (j : json) : err json :=
  match j with
  | JObj m =>
      match (fix members (l : list (string * json)) : err (list (string * json)) :=
        match l with
        | [] => Good []
        | (k, v) :: r =>
            if String.eqb k "$ref" then
              match v with
              | JStr str =>
                  match resolveRef s str with
                  | Bad e => Bad e
                  | Good (d, p) => match members r with Good r' => Good ((k, JStr (d ++ p)) :: r') | Bad e => Bad e end
                  end
              | _ => Good l
              end
            else
              match v with
              | JObj _ =>
                  match rewriteJson s v with
                  | Bad e => Bad e
                  | Good v' => match members r with Good r' => Good ((k, v') :: r') | Bad e => Bad e end
                  end
              | JArr xs =>
                  match (fix elems (xs : list json) : err (list json) :=
                    match xs with
                    | [] => Good []
                    | x :: t =>
                        match (match x with JObj _ => rewriteJson s x | _ => Good x end) with
                        | Bad e => Bad e
                        | Good x' => match elems t with Good t' => Good (x' :: t') | Bad e => Bad e end
                        end
                    end) xs with
                  | Bad e => Bad e
                  | Good xs' => match members r with Good r' => Good ((k, JArr xs') :: r') | Bad e => Bad e end
                  end
              | _ => match members r with Good r' => Good ((k, v) :: r') | Bad e => Bad e end
              end
        end) m with
      | Good m' => Good (JObj m')
      | Bad e => Bad e
      end
  | _ => Good j
  end.

(* document.go 154-185 RewriteReferencesRelativeToDocument: the node is written, read as a generic value
   (every number becomes a float64), rewritten, written and read again *)
Definition rewriteNode (s : pst) (n : schemaNode) : err schemaNode :=
  match decAny (encodeNode n) with
  | None => Bad "unmarshal generic"
  | Some g =>
      match rewriteJson s g with
      | Bad e => Bad e
      | Good j => match decodeNode (encAny j) with Some n' => Good n' | None => Bad "unmarshal" end
      end
  end.
End Resolver.
