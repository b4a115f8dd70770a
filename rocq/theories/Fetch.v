(* The document fetchers (fetchers.go) and their selection (document.go 58-75, 521-545). *)
From Coq Require Import ZArith List String Ascii Bool Lia.
From Verif Require Import Base Float64 Json Schema PState.
Import ListNotations.
Open Scope string_scope.
Open Scope Z_scope.

(* ------------------------------------------------------------------ the outside world *)

(* net/url, path/filepath, os and net/http as functions.  wParse is url.Parse (None: an error, and then
   the url is nil), wResolve base ref is base.ResolveReference(ref), wString is String().  wRealPath is
   getRealPath (fetchers.go 223-236: Abs and EvalSymlinks), wJoin a b is filepath.Join(filepath.Dir(a), b),
   wCwd is os.Getwd, wMatch allowed path is filepath.Match(filepath.Join(allowed, "*"), path).  wGet and
   wRead are the documents that http.Get and os.ReadFile return after decoding.
   Simplification: the answers do not change while one schema is parsed. *)
Record world : Type := mkW {
  wUrl : Type;
  wScheme : wUrl -> string;
  wHost : wUrl -> string;
  wString : wUrl -> string;
  wParse : string -> option wUrl;
  wResolve : wUrl -> wUrl -> wUrl;
  wIsAbs : string -> bool;
  wJoin : string -> string -> string;
  wRealPath : string -> option string;
  wCwd : option string;
  wMatch : string -> string -> option bool;
  wGet : string -> option schemaNode;
  wRead : string -> option schemaNode }.

(* parse.go 43-69 HTTPFetchOptions, FileSystemFetchOptions *)
Record httpOpts : Type := mkHttp { hEnabled : bool; hHosts : list string; hInsecure : bool }.
Record fileOpts : Type := mkFile { fEnabled : bool; fPaths : list string; fOutside : bool }.

(* strings.CutPrefix and strings.TrimPrefix *)
Fixpoint cutPrefix (pre str : string) : option string :=
  match pre with
  | EmptyString => Some str
  | String c p =>
      match str with
      | String d r => if Ascii.eqb c d then cutPrefix p r else None
      | EmptyString => None
      end
  end.
Definition trimPrefix (pre str : string) : string := match cutPrefix pre str with Some r => r | None => str end.

(* ------------------------------------------------------------------ filepath.Rel *)

(* the non-empty elements of a path *)
Fixpoint splitPath (cur : string) (p : string) : list string :=
  match p with
  | EmptyString => if String.eqb cur "" then [] else [cur]
  | String c r =>
      if Ascii.eqb c "/" then (if String.eqb cur "" then splitPath "" r else cur :: splitPath "" r)
      else splitPath (cur ++ String c EmptyString) r
  end.
Definition elements (p : string) : list string := splitPath "" p.

Fixpoint stripCommon (b t : list string) : list string * list string :=
  match b, t with
  | x :: b', y :: t' => if String.eqb x y then stripCommon b' t' else (b, t)
  | _, _ => (b, t)
  end.
(* filepath.Rel for absolute cleaned paths: ".." for each element of the base that the target does not
   share, then the rest of the target *)
Definition relPath (base targ : string) : string :=
  let '(b, t) := stripCommon (elements base) (elements targ) in
  match b, t with
  | [], [] => "."
  | _, _ => String.concat "/" (map (fun _ => "..") b ++ t)%list
  end.

(* strings.Contains(s, "..") *)
Fixpoint hasDotDot (str : string) : bool :=
  match str with
  | EmptyString => false
  | String c r => (Ascii.eqb c "." && match r with String d _ => Ascii.eqb d "." | EmptyString => false end) || hasDotDot r
  end.

Section Fetchers.
Variable W : world.

(* ------------------------------------------------------------------ HTTP *)

(* fetchers.go 34-56 NewHttpDocumentFetcher: the condition parsedUrl != nil && err != nil never holds, so
   every entry is kept as it was written *)
Definition httpAllowed (o : httpOpts) : list string :=
  map (fun host => match wParse W host with None => host | Some _ => host end) (hHosts o).

(* fetchers.go 58-88 resolveDocumentId *)
Definition httpResolve (o : httpOpts) (relativeTo ref : string) : option string :=
  match wParse W ref, wParse W relativeTo with
  | Some parsed, Some base =>
      let resolved := if String.eqb (wScheme W base) "http" || String.eqb (wScheme W base) "https"
                      then wResolve W base parsed else parsed in
      if negb (hInsecure o) && negb (String.eqb (wScheme W resolved) "https") then None
      else if (0 <? Z.of_nat (List.length (httpAllowed o))) && negb (mem_string (wHost W resolved) (httpAllowed o)) then None
      else Some (wString W resolved)
  | _, _ => None
  end.

(* ------------------------------------------------------------------ files *)

(* fetchers.go 117-134 NewFileSystemDocumentFetcher: the resolved allowed paths, or an error *)
Fixpoint realPaths (l : list string) : option (list string) :=
  match l with
  | [] => Some []
  | p :: r => match wRealPath W p, realPaths r with Some x, Some xs => Some (x :: xs) | _, _ => None end
  end.

(* fetchers.go 197-205 isOutsideOfCwd *)
Definition outsideCwd (path : string) : option bool :=
  match wCwd W with Some cwd => Some (hasDotDot (relPath cwd path)) | None => None end.

(* fetchers.go 207-221 isOutsideOfAllowedPaths *)
Fixpoint outsideAllowed (path : string) (allowed : list string) : option bool :=
  match allowed with
  | [] => Some true
  | a :: r =>
      match wMatch W a path with
      | None => None
      | Some matched => if negb matched then Some false else outsideAllowed path r
      end
  end.

(* fetchers.go 136-179 resolveDocumentId *)
Definition fileResolve (outside : bool) (allowed : list string) (relativeTo ref : string) : option string :=
  match wParse W ref with
  | None => None
  | Some parsed =>
      if negb (String.eqb (wScheme W parsed) "file") && negb (String.eqb (wScheme W parsed) "") then None else
      let path := trimPrefix "file://" ref in
      let path := if wIsAbs W path then path else wJoin W (trimPrefix "file://" relativeTo) path in
      match wRealPath W path with
      | None => None
      | Some resolved =>
          match (if negb outside then outsideCwd resolved else Some false) with
          | Some false =>
              match outsideAllowed resolved allowed with
              | Some false => Some ("file://" ++ resolved)
              | _ => None
              end
          | _ => None
          end
      end
  end.

(* ------------------------------------------------------------------ selection *)

Inductive fetcher : Type := FHttp | FFile.

(* document.go 58-75 newDocumentResolver: the fetcher registered for a scheme *)
Definition forScheme (h : httpOpts) (f : fileOpts) (scheme : string) : option fetcher :=
  if hEnabled h && (String.eqb scheme "http" || String.eqb scheme "https") then Some FHttp
  else if fEnabled f && String.eqb scheme "file" then Some FFile
  else None.

(* document.go 521-545 getFetcherForRef *)
Definition fetcherFor (h : httpOpts) (f : fileOpts) (parsing id : string) : option fetcher :=
  match wParse W id with
  | None => None
  | Some u =>
      if String.eqb (wScheme W u) "" then
        match wParse W parsing with
        | None => None
        | Some v => if String.eqb (wScheme W v) "" then None else forScheme h f (wScheme W v)
        end
      else forScheme h f (wScheme W u)
  end.

(* document.go 497-505: selection, then resolveDocumentId *)
Definition resolveId (h : httpOpts) (f : fileOpts) (allowed : list string) (parsing scope doc : string) : option string :=
  match fetcherFor h f parsing doc with
  | Some FHttp => httpResolve h scope doc
  | Some FFile => fileResolve (fOutside f) allowed scope doc
  | None => None
  end.

(* What one call of fetchDocument asks the outside world for: fetchers.go 90-115 a request, 181-195 a
   file. *)
Inductive access : Type := Request (url : string) | ReadFile (path : string).
Definition accessOf (h : httpOpts) (f : fileOpts) (parsing id : string) : option access :=
  match fetcherFor h f parsing id with
  | Some FHttp => Some (Request id)
  | Some FFile => Some (ReadFile (trimPrefix "file://" id))
  | None => None
  end.
(* document.go 462-470: selection, then fetchDocument *)
Definition fetchId (h : httpOpts) (f : fileOpts) (parsing id : string) : option schemaNode :=
  match accessOf h f parsing id with
  | Some (Request u) => wGet W u
  | Some (ReadFile p) => wRead W p
  | None => None
  end.

(* the parser's environment with these fetchers; [allowed] is the result of NewFileSystemDocumentFetcher *)
Definition withFetchers (h : httpOpts) (f : fileOpts) (allowed : list string) (E : penv) : penv :=
  mkPE (pxMaxDepth E) (hEnabled h || fEnabled f) (resolveId h f allowed) (fetchId h f) (pxRelURI E) (pxIsAbs E)
    (pxRegexOk E) (pxPropRegexOk E) (pxGoRegexOk E) (pxCompile E) (pxValid E) (pxHasFormat E).

(* everything that was asked for while parsing *)
Fixpoint accesses (h : httpOpts) (f : fileOpts) (log : list (string * string)) : list access :=
  match log with
  | [] => []
  | (p, id) :: r => match accessOf h f p id with Some a => a :: accesses h f r | None => accesses h f r end
  end.
End Fetchers.

(* net/http client.go 80-100, 617-650: http.Get follows redirections, at most ten; [answer] is what the
   servers say *)
Fixpoint httpGet (answer : string -> option string) (k : nat) (url : string) : list string :=
  url :: match k with
         | O => []
         | S k' => match answer url with Some u => httpGet answer k' u | None => [] end
         end.
