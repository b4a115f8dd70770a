(* The exported parsing functions (parse.go 13-41, 193-287, 421-440) and the command line tool
   (cli/cli.go). *)
From Coq Require Import ZArith List String Ascii Bool Lia.
From Verif Require Import Base Float64 Json Schema Util Number Options Gen Codec PState RefPath Merge NotMerge Parse Regen Fetch.
Import ListNotations.
Open Scope string_scope.
Open Scope Z_scope.

(* internal/regen/regen.go 119-147 GeneratorArgs, as far as they are data: the counts and LimitToAscii,
   SuppressRandomBytes, Flags.  Not modelled: RngSource, CaptureGroupHandler. *)
Record regexOpts : Type := mkRO { roArgs : rargs; roSuppress : bool; roFlags : Z }.

(* parse.go 14-32 ParserOptions; None is a nil pointer *)
Record parserOptions : Type := mkPO {
  poString : option regexOpts;
  poPattern : option regexOpts;
  poHttp : httpOpts;
  poFile : fileOpts;
  poRelativeTo : string;
  poMaxDepth : Z }.
(* ParserOptions{}: the zero value *)
Definition noOptions : parserOptions := mkPO None None (mkHttp false [] false) (mkFile false [] false) "" 0.
Definition set_poRelativeTo (r : string) (o : parserOptions) : parserOptions :=
  mkPO (poString o) (poPattern o) (poHttp o) (poFile o) r (poMaxDepth o).

(* parse.go 430-434; syntax.PerlX is 1 << 4 *)
Definition defaultRegexOpts : regexOpts := mkRO (mkArgs 0 10 false) true 16.
(* internal/util/util.go 58-66 GetPtr *)
Definition getPtr {A} (a b : option A) : option A := match a with Some x => Some x | None => b end.
(* parse.go 421-440 withDefaultParseOptions: line 437 reads the string options *)
Definition withDefaultParse (o : parserOptions) : parserOptions :=
  let str := getPtr (poString o) (Some defaultRegexOpts) in
  mkPO str (getPtr str (Some defaultRegexOpts)) (poHttp o) (poFile o) (poRelativeTo o) (getInt (poMaxDepth o) 100).

(* What the libraries do, as functions: lbDecode is encoding/json on a text; lbResource says that the
   document can be added to the schema compiler (schema.go 35); lbRegexOk args pattern says that
   newRegexGenerator (regex.go 11-19) succeeds; the others are as in penv. *)
Record libs : Type := mkLibs {
  lbDecode : string -> option json;
  lbResource : string -> json -> bool;
  lbRelURI : string -> string -> string;
  lbIsAbs : string -> bool;
  lbRegexOk : regexOpts -> string -> bool;
  lbGoRegexOk : string -> bool;
  lbCompile : schemaNode -> bool;
  lbValid : schemaNode -> json -> bool;
  lbHasFormat : string -> bool }.

Section Api.
Variable W : world.
Variable L : libs.
Variable readText : string -> option string.   (* os.ReadFile *)

(* document.go 56 *)
Definition rootDocumentId : string := "8dabc98a-527b-4f08-baba-315beb368097.json".
(* document.go 77-91: RelativeTo after defaulting and the id of the root document.  filepath.Join cleans
   "file:///w/" to "file:/w"; the working directory is taken to be a cleaned absolute path. *)
Definition rootIds (o : parserOptions) : string * string :=
  if String.eqb (poRelativeTo o) "" then
    match wCwd W with
    | None => ("file://./", "file:/" ++ rootDocumentId)
    | Some cwd => ("file://" ++ cwd ++ "/", "file:" ++ (if String.eqb cwd "/" then "" else cwd) ++ "/" ++ rootDocumentId)
    end
  else (poRelativeTo o, poRelativeTo o).

(* the parser's environment under options with their defaults *)
Definition penvOf (o : parserOptions) (allowed : list string) : penv :=
  withFetchers W (poHttp o) (poFile o) allowed
    (mkPE (poMaxDepth o) false (fun _ _ _ => None) (fun _ _ => None) (lbRelURI L) (lbIsAbs L)
      (match poString o with Some a => lbRegexOk L a | None => fun _ => false end)
      (match poPattern o with Some a => lbRegexOk L a | None => fun _ => false end)
      (lbGoRegexOk L) (lbCompile L) (lbValid L) (lbHasFormat L)).

(* an error before parsing starts, or the result of parsing *)
Inductive outcome : Type := Failed (why : string) | Parsed (r : err gen) (s : pst).

(* parse.go 237-280 ParseSchema *)
Definition parseSchema (fuel : nat) (text : string) (opts : parserOptions) : res outcome :=
  match lbDecode L text with
  | None => Ok (Failed "syntax")
  | Some j =>
      match decodeNode j with
      | None => Ok (Failed "schema")
      | Some n =>
          let o := withDefaultParse opts in
          match (if fEnabled (poFile o) then realPaths W (fPaths (poFile o)) else Some []) with
          | None => Ok (Failed "allowed paths")
          | Some allowed =>
              let '(relativeTo, rootId) := rootIds o in
              if negb (lbResource L relativeTo j) then Ok (Failed "resource")
              else match parseDoc (penvOf o allowed) fuel relativeTo rootId n with
                   | Ok (r, s) => Ok (Parsed r s)
                   | Panic w => Panic w
                   | Timeout => Timeout
                   end
          end
      end
  end.

(* parse.go 199-220 ParseSchemaFile; returns also what the caller's options are afterwards *)
Definition parseSchemaFile (fuel : nat) (path : string) (opts : parserOptions) : res outcome * parserOptions :=
  match wRealPath W path with
  | None => (Ok (Failed "path"), opts)
  | Some real =>
      match readText real with
      | None => (Ok (Failed "read"), opts)
      | Some text =>
          let opts := if String.eqb (poRelativeTo opts) "" then set_poRelativeTo ("file://" ++ real) opts else opts in
          (parseSchema fuel text opts, opts)
      end
  end.
(* a program that parses several files with one options value *)
Fixpoint parseFiles (fuel : nat) (paths : list string) (opts : parserOptions) : list (res outcome) :=
  match paths with
  | [] => []
  | p :: r => let '(x, opts') := parseSchemaFile fuel p opts in x :: parseFiles fuel r opts'
  end.

(* ------------------------------------------------------------------ the command line tool *)

(* cli/cli.go 24-47: the flags that are data.  Not modelled: -help, -version, -format, -verbose. *)
Record flags : Type := mkFlags {
  flFile : string;
  flOutput : string;
  flHosts : string;
  flInsecure : bool;
  flOutside : bool;
  flPaths : string;
  flBypass : bool;
  flRefDepth : Z;
  flIfAttempts : Z;
  flOneOfAttempts : Z;
  flSteps : Z;
  flCutoff : Z }.
(* cli/cli.go 24-47: the values without any flag *)
Definition noFlags : flags := mkFlags "" "" "" false false "" false 10 100 100 1000 2000.

(* strings.Split(s, ",") *)
Fixpoint splitComma (cur str : string) : list string :=
  match str with
  | EmptyString => [cur]
  | String c r => if Ascii.eqb c "," then cur :: splitComma "" r else splitComma (cur ++ String c "") r
  end.
(* cli/cli.go 148-154 parseCommaSeparatedList *)
Definition commaList (s : string) : list string := if String.eqb s "" then [] else splitComma "" s.
(* cli/cli.go 124-134 getHttpDocumentFetcherOptionsFromFlags *)
Definition cliHttp (f : flags) : httpOpts :=
  if String.eqb (flHosts f) "" && negb (flInsecure f) then mkHttp false [] false
  else mkHttp true (commaList (flHosts f)) (flInsecure f).
(* cli/cli.go 136-146 getFileSystemDocumentFetcherOptionsFromFlags *)
Definition cliFile (f : flags) : fileOpts :=
  if negb (flOutside f) && String.eqb (flPaths f) "" then mkFile false [] false
  else mkFile true (commaList (flPaths f)) (flOutside f).
(* cli/cli.go 64-69 *)
Definition cliOptions (f : flags) : parserOptions := mkPO None None (cliHttp f) (cliFile f) "" 0.
(* cli/cli.go 71-81: the schema of the -file flag, or of standard input with default options *)
Definition cliParse (fuel : nat) (f : flags) (stdin : option string) : res outcome :=
  if negb (String.eqb (flFile f) "") then fst (parseSchemaFile fuel (flFile f) (cliOptions f))
  else match stdin with
       | Some text => parseSchema fuel text noOptions
       | None => Ok (Failed "no schema")
       end.
(* cli/cli.go 95-102 *)
Definition cliGenOptions (f : flags) : genOptions :=
  mkOpts 0 0 0 0 0 0 0 0 (flRefDepth f) (flBypass f) false 0 (flIfAttempts f) (flOneOfAttempts f) (flSteps f) (flCutoff f).
End Api.

(* ------------------------------------------------------------------ writing the output *)

(* cli/cli.go 156-172 writeFile as a sequence of system calls: Stat, Create (which truncates), Write.
   The files are a map from names to contents; between two calls other processes may change it, and the
   process may be killed.  Simplification: one Write call stores all of the data. *)
Inductive phase : Type := AtStat | AtCreate | AtWrite | Done | Refused.
Definition files : Type := list (string * string).
Definition writeStep (path data : string) (p : phase) (fs : files) : phase * files :=
  match p with
  | AtStat => (match assoc path fs with Some _ => Refused | None => AtCreate end, fs)
  | AtCreate => (AtWrite, massign path "" fs)
  | AtWrite => (Done, massign path (get_or (assoc path fs) "" ++ data) fs)
  | Done => (Done, fs)
  | Refused => (Refused, fs)
  end.
(* an execution: own steps and changes made by others *)
Inductive move : Type := Own | Other (f : files -> files).
Fixpoint writeRun (path data : string) (moves : list move) (p : phase) (fs : files) : phase * files :=
  match moves with
  | [] => (p, fs)
  | Own :: r => let '(p', fs') := writeStep path data p fs in writeRun path data r p' fs'
  | Other f :: r => writeRun path data r p (f fs)
  end.
