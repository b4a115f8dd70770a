(* merge.go: merging schema nodes.  mergeSchemaNodes returns a (node, error) pair whose error is always
   nil: the only non-nil errors it could pass on are its own (flattenResidualAllOf, line 329), so the
   model returns the node and the branches on that error are left out. *)
From Coq Require Import ZArith List String Bool.
From Verif Require Import Base Float64 Json Schema Util Number Gen Codec PState RefPath.
Import ListNotations.
Open Scope string_scope.
Open Scope Z_scope.

(* ------------------------------------------------------------------ pure parts *)

(* merge.go 141-149 collectEnumValues *)
Definition collectEnum (n : schemaNode) : option (list json) :=
  match sEnum n with
  | Some l => Some l
  | None => match sConst n with Some v => Some [v] | None => None end
  end.

(* merge.go 553-577 intersectEnumSlices *)
Definition intersectEnum (a b : list json) : list json :=
  filter (fun v => mem_enc (marshal v) (map marshal b)) a.

(* merge.go 183-191 *)
Definition putEnum (result : list json) (m : schemaNode) : schemaNode :=
  match result with
  | [v] => set_sConst (Some v) (set_sEnum None m)
  | _ => set_sConst None (set_sEnum (Some result) m)
  end.

(* merge.go 151-192 mergeEnumAndConst; true = the empty intersection was reported *)
Definition mergeEnum (m n : schemaNode) : schemaNode * bool :=
  match collectEnum m, collectEnum n with
  | None, None => (m, false)
  | None, Some r => (putEnum r m, false)
  | Some l, None => (putEnum l m, false)
  | Some l, Some r =>
      match intersectEnum l r with
      | [] => (set_sConst None (set_sEnum None m), true)
      | i => (putEnum i m, false)
      end
  end.

(* merge.go 279-307 mergeNot *)
Definition mergeNot (m n : schemaNode) : schemaNode :=
  let m1 :=
    match sNot n with
    | None => m
    | Some x =>
        match sNot m, sMergedNot m with
        | Some y, l => set_sNot None (set_sMergedNot (l ++ [y; x]) m)
        | None, (_ :: _) as l => set_sMergedNot (l ++ [x]) m
        | None, [] => set_sNot (Some x) m
        end
    end in
  match sMergedNot n with
  | [] => m1
  | l => match sNot m1 with
         | Some y => set_sMergedNot (sMergedNot m1 ++ [y] ++ l) (set_sNot None m1)
         | None => set_sMergedNot (sMergedNot m1 ++ l) m1
         end
  end.

(* if.go 109-117 newIfStatement and merge.go 512-528 mergeIf, with the current path *)
Definition newIf (n : schemaNode) (path : string) : ifStmt schemaNode := mkIf path (sIf n) (sThen n) (sElse n).
Definition mergeIf (path : string) (m n : schemaNode) : schemaNode :=
  let l := (sMergedIf m ++ sMergedIf n)%list in
  set_sMergedIf (match sIf n with Some _ => l ++ [newIf n (path ++ "/if")] | None => l end) m.

(* merge.go 430-446 mergeSchemaTypes *)
Definition mergeTypes (m n : option multipleType) : option multipleType :=
  match n with
  | None => m
  | Some t =>
      let cur := get_or m (mkMT "" None) in
      Some (if negb (String.eqb (mtSingle t) "") then mkMT (mtSingle t) None
            else match mtMultiple t with Some (x :: r) => mkMT "" (Some (x :: r)) | _ => cur end)
  end.

(* merge.go 333-370 mergeSchemaNodeSimpleProperties without its warnings *)
Definition mergeSimple (m n : schemaNode) : schemaNode :=
  set_sLength (getPtr (sLength n) (sLength m))
  (set_sMinProperties (maxIntPtr (sMinProperties n) (sMinProperties m))
  (set_sMaxProperties (minIntPtr (sMaxProperties n) (sMaxProperties m))
  (set_sMinItems (maxIntPtr (sMinItems n) (sMinItems m))
  (set_sMaxItems (minIntPtr (sMaxItems n) (sMaxItems m))
  (set_sMinContains (maxIntPtr (sMinContains n) (sMinContains m))
  (set_sMaxContains (minIntPtr (sMaxContains n) (sMaxContains m))
  (set_sMinLength (maxIntPtr (sMinLength n) (sMinLength m))
  (set_sMaxLength (minIntPtr (sMaxLength n) (sMaxLength m))
  (set_sMinimum (maxFloatPtr (sMinimum n) (sMinimum m))
  (set_sMaximum (minFloatPtr (sMaximum n) (sMaximum m))
  (set_sExclusiveMinimum (maxFloatPtr (sExclusiveMinimum n) (sExclusiveMinimum m))
  (set_sExclusiveMaximum (minFloatPtr (sExclusiveMaximum n) (sExclusiveMaximum m))
  (set_sMultipleOf (findHcf (sMultipleOf n) (sMultipleOf m))
  (set_sPattern (getPtr (sPattern n) (sPattern m))
  (set_sFormat (getPtr (sFormat n) (sFormat m))
  (set_sRequired (mergeSlicePtrs (sRequired m) (sRequired n))
  (set_sUniqueItems (getPtr (sUniqueItems n) (sUniqueItems m)) m))))))))))))))))).

(* merge.go 372-376 warnIfBothSetAndAreDifferent *)
Definition differ {A} (eqb : A -> A -> bool) (a b : option A) : bool :=
  match a, b with Some x, Some y => negb (eqb x y) | _, _ => false end.
Definition simpleWarnings (m n : schemaNode) : list string :=
  (if differ Z.eqb (sLength n) (sLength m) then ["length"] else []) ++
  (if differ String.eqb (sPattern m) (sPattern n) then ["pattern"] else []) ++
  (if differ String.eqb (sFormat m) (sFormat n) then ["format"] else []) ++
  (if differ Bool.eqb (sUniqueItems m) (sUniqueItems n) then ["uniqueItems"] else []).

(* constraint.go 55-112 Merge: maps of keys, and appended property names *)
Definition addKey {A} (eqb : A -> A -> bool) (l : list A) (x : A) : list A := if existsb (eqb x) l then l else (l ++ [x])%list.
Definition addKeys {A} (eqb : A -> A -> bool) (l xs : list A) : list A := fold_left (addKey eqb) xs l.
Definition mergeColl (a b : ccoll) : ccoll :=
  mkCC (addKeys String.eqb (ccRegex a) (ccRegex b)) (addKeys String.eqb (ccFormat a) (ccFormat b))
       (addKeys oenc_eqb (ccValues a) (ccValues b)) (ccProps a ++ ccProps b).
(* merge.go 69-75.  Simplification: Go merges into the collection the first node points to, which later
   merges of that same node would see. *)
Definition mergeConstraints (a b : option ccoll) : option ccoll :=
  match b with
  | None => a
  | Some y => match a with None => b | Some x => Some (mergeColl x y) end
  end.

(* ------------------------------------------------------------------ recursive parts *)

Section Merge.
Variable E : penv.
Variable rec : list schemaNode -> P schemaNode.      (* mergeSchemaNodes *)

(* merge.go 194-245 mergeProperties, mergePatternProperties: keys present on both sides are merged *)
Fixpoint mergeMapLoop (merged node : list (string * schemaNode)) : P (list (string * schemaNode)) :=
  match node with
  | [] => pret merged
  | (k, v) :: r =>
      match assoc k merged with
      | Some old => let* x := rec [old; v] in mergeMapLoop (massign k x merged) r
      | None => mergeMapLoop (massign k v merged) r
      end
  end.
Definition mergeMap (merged node : option (list (string * schemaNode))) : P (option (list (string * schemaNode))) :=
  match node with
  | None => pret merged
  | Some l => let* r := mergeMapLoop (get_or merged []) l in pret (Some r)
  end.

(* merge.go 247-277 mergePrefixItems *)
Fixpoint mergePrefixLoop (merged node : list schemaNode) : P (list schemaNode) :=
  match merged, node with
  | [], _ => pret node
  | _, [] => pret merged
  | a :: ra, b :: rb => let* x := rec [a; b] in let* r := mergePrefixLoop ra rb in pret (x :: r)
  end.
Definition mergePrefix (merged node : option (list schemaNode)) : P (option (list schemaNode)) :=
  match node with
  | None => pret merged
  | Some l => let* r := mergePrefixLoop (get_or merged []) l in pret (Some r)
  end.

(* merge.go 448-474 mergeItemsData *)
Definition mergeItems (merged node : option (itemsData schemaNode)) : P (option (itemsData schemaNode)) :=
  match node with
  | None => pret merged
  | Some d =>
      match itNode d with
      | None => pret merged
      | Some b =>
          let cur := get_or merged (mkItems None None false) in
          if itDisallow cur || itDisallow d then pret (Some (mkItems None None true))
          else match itNode cur with
               | Some a => let* x := rec [a; b] in pret (Some (mkItems (Some x) (itNodes cur) false))
               | None => pret (Some (mkItems (Some b) (itNodes cur) false))
               end
      end
  end.

(* merge.go 476-510 mergeNodeOrFalse *)
Definition mergeNof (merged node : option (nodeOrFalse schemaNode)) : P (option (nodeOrFalse schemaNode)) :=
  match node, merged with
  | None, _ => pret merged
  | _, None => pret node
  | Some b, Some a =>
      if nofFalse a then pret merged
      else if nofFalse b then pret node
      else match nofSchema a, nofSchema b with
           | None, _ => pret node
           | _, None => pret merged
           | Some x, Some y => let* r := rec [x; y] in pret (Some (mkNOF (Some r) false))
           end
  end.

(* merge.go 530-551 mergeSchemaPtrs with two pointers *)
Definition mergePtr (a b : option schemaNode) : P (option schemaNode) :=
  match a, b with
  | Some x, Some y => let* r := rec [x; y] in pret (Some r)
  | Some _, None => pret a
  | None, _ => pret b
  end.

(* merge.go 382-428 mergeResolveReference: follow $ref until a node without one *)
Fixpoint followRefs (fuel : nat) (seen : list string) (ref : string) : P (err schemaNode) :=
  match fuel with
  | O => plift Timeout
  | S f =>
      let* r := resolvePath E ref in
      match r with
      | Bad m => run* addErrSub "/config_ref_merge_error[]" "ref" in pret (Bad m)
      | Good (n, name) =>
          if mem_string name seen then run* addErrSub "/$ref" "circular" in pret (Bad "circular")
          else match sRef n with
               | Some r' => followRefs f (seen ++ [name]) r'
               | None => pret (Good n)
               end
      end
  end.
Definition resolveReference (fuel : nat) (ref : string) : P (err schemaNode) :=
  let* r := followRefs fuel [] ref in
  let* out := match r with
              | Bad m => pret (Bad m)
              | Good n =>
                  let* s := pget in
                  match rewriteNode E s n with
                  | Good n' => pret (Good n')
                  | Bad m => run* addErrSub "/config_ref_rewrite_error" "rewrite" in pret (Bad m)
                  end
              end in
  let* s := pget in run* setResolving (pParsing s) in pret out.

(* merge.go 98-135 mergeResolveNodeRef: the node to merge and whether a resolution was pushed.  (The Go
   for loop returns in every branch of its body.) *)
Definition resolveNodeRef (fuel : nat) (n : schemaNode) : P (schemaNode * bool) :=
  match sRef n with
  | None => pret (n, false)
  | Some ref =>
      let* s := pget in
      match resolveRef E s ref with
      | Bad _ => run* warnMerge "/$ref" in pret (set_sRef None n, false)
      | Good (d, p) =>
          if hasResolved s d p then pret (n, false)
          else
            let* r := resolveReference fuel (d ++ p) in
            match r with
            | Bad _ => run* warnMerge "/$ref" in pret (set_sRef None n, false)
            | Good t => run* pushRes d p in pret (t, true)
            end
      end
  end.

Fixpoint warnAll (fields : list string) : P unit :=
  match fields with [] => pret tt | f :: r => run* warnMerge f in warnAll r end.

(* merge.go 39-82: one node merged into the accumulated one *)
Definition mergeInto (m n : schemaNode) : P schemaNode :=
  let m := set_sType (mergeTypes (sType m) (sType n)) m in
  let '(m, emptied) := mergeEnum m n in
  run* (if emptied : bool then warnMerge "enum/const" else pret tt) in
  let* props := mergeMap (sProperties m) (sProperties n) in
  let* addp := mergeNof (sAdditionalProperties m) (sAdditionalProperties n) in
  let* patp := mergeMap (sPatternProperties m) (sPatternProperties n) in
  let* pre := mergePrefix (sPrefixItems m) (sPrefixItems n) in
  let* its := mergeItems (sItems m) (sItems n) in
  let* addi := mergeNof (sAdditionalItems m) (sAdditionalItems n) in
  let* unev := mergeNof (sUnevaluatedItems m) (sUnevaluatedItems n) in
  let* cont := mergePtr (sContains m) (sContains n) in
  let m := set_sProperties props (set_sAdditionalProperties addp (set_sPatternProperties patp
           (set_sPrefixItems pre (set_sItems its (set_sAdditionalItems addi (set_sUnevaluatedItems unev (set_sContains cont m))))))) in
  let m := set_sOneOf (mergeSlicePtrs (sOneOf m) (sOneOf n))
           (set_sAnyOf (mergeSlicePtrs (sAnyOf m) (sAnyOf n))
           (set_sAllOf (mergeSlicePtrs (sAllOf m) (sAllOf n)) m)) in
  let m := mergeNot m n in
  let* s := pget in
  let m := mergeIf (pPath s) m n in
  run* warnAll (simpleWarnings m n) in
  let m := mergeSimple m n in
  let m := set_sConstraints (mergeConstraints (sConstraints m) (sConstraints n)) m in
  pret (match sRef n with Some r => set_sRef (Some r) m | None => m end).

(* merge.go 19-93 the loop body *)
Definition mergeOne (fuel : nat) (m n : schemaNode) : P schemaNode :=
  let* nr := resolveNodeRef fuel n in
  let '(n, resolved) := nr in
  let* n := match sAllOf n with
            | Some subs => if resolved : bool then rec (subs ++ [set_sAllOf None n])%list else pret n
            | None => pret n
            end in
  let* m := mergeInto m n in
  if resolved then
    run* popRes in
    let* s := pget in
    run* setResolving (currentResolutionDoc s) in
    pret m
  else pret m.

Fixpoint mergeLoop (fuel : nat) (m : schemaNode) (nodes : list schemaNode) : P schemaNode :=
  match nodes with
  | [] => pret m
  | n :: r => let* m' := mergeOne fuel m n in mergeLoop fuel m' r
  end.

(* merge.go 309-331 flattenResidualAllOf: the loop has no bound of its own *)
Fixpoint flatten (fuel : nat) (m : schemaNode) : P schemaNode :=
  match fuel with
  | O => plift Timeout
  | S f =>
      match sAllOf m with
      | Some ((_ :: _) as l) =>
          let* s := pget in
          if pxMaxDepth E <? pDepth s + 1 then pret m
          else
            run* pmod (withDepth (pDepth s + 1)) in
            let* m' := rec (l ++ [set_sAllOf None m])%list in
            let* s' := pget in
            run* pmod (withDepth (pDepth s' - 1)) in
            flatten f m'
      | _ => pret m
      end
  end.
End Merge.

(* merge.go 15-96 mergeSchemaNodes *)
Fixpoint merge (E : penv) (fuel : nat) (nodes : list schemaNode) : P schemaNode :=
  match fuel with
  | O => plift Timeout
  | S f => let* m := mergeLoop E (merge E f) f emptyNode nodes in flatten E (merge E f) f m
  end.
