(* error.go: the collection of errors a user reads after parsing.
   The parser's state keeps every call of AddErrorWithSubpath, the newest first (pErrs in PState.v); here the calls are
   played back into the Go structure, a map from documents to maps from paths to errors. *)
From Coq Require Import List String Bool.
From Verif Require Import Base Schema PState.
Import ListNotations.
Open Scope string_scope.

(* error.go 8-13 errorCollection.Errors *)
Definition errorTable : Type := list (string * list (string * string)).

(* error.go 26-34 AddErrorWithSubpath, where path is the current path followed by the sub-path *)
Definition addError (doc path tag : string) (t : errorTable) : errorTable :=
  let t' := match assoc doc t with Some _ => t | None => massign doc [] t end in
  massign doc (massign path tag match assoc doc t' with Some m => m | None => [] end) t'.

(* the collection after all the calls made so far *)
Definition errorsOf (s : pst) : errorTable :=
  fold_right (fun e t => addError (fst (fst e)) (snd (fst e)) (snd e) t) [] (pErrs s).

(* error.go 40-42 HasErrors *)
Definition hasErrors (t : errorTable) : bool := Nat.ltb 0 (List.length t).

(* error.go 44-54 CollectErrors.  Go visits the entries of a map in any order: visits holds the order, and any
   permutation of the entries is allowed, which includes those that mix documents *)
Definition errorEntries (t : errorTable) : list (string * string) :=
  flat_map (fun d => map (fun e => (fst d ++ " -> " ++ fst e, snd e)) (snd d)) t.
Definition collectErrors (visits : list (string * string)) : list (string * string) :=
  fold_left (fun m e => massign (fst e) (snd e) m) visits [].
