(** Model of the workspace-wide descriptor searches, pkg/lsp/cache.go:366-399
    (findAllDescriptorsByPrefixLocked) and 409-451
    (findAllDescriptorsByQualifiedPrefixLocked).

    Simplifications: a searched file (which files are searched is the subject of
    the Compile area) is its package name and the full names of its descriptors;
    linker.Result.FindDescriptorsByPrefix is third-party code, taken by its
    contract (descriptors whose full name starts with the prefix); filters are
    left out; each file's search runs in its own goroutine and writes only its
    own slot, so the result does not depend on the schedule. *)
From Coq Require Import Ascii String.
From Verif Require Import Base Strs.
Open Scope list_scope.

Record file := mkFile { pkg : bytes; names : list bytes }.

Definition find_by_prefix (f : file) (p : bytes) : list bytes :=
  filter (fun n => has_prefix n p) (names f).

Definition dotc : ascii := "."%char.

(** cache.go:366-399 *)
Definition search (fs : list file) (prefix : bytes) : list (list bytes) :=
  map (fun f => match pkg f with
                | [] => []                                              (* 381-384 *)
                | _ => find_by_prefix f (pkg f ++ dotc :: prefix)       (* 386 *)
                end) fs.

(** cache.go:409-451 *)
Definition search_qualified (fs : list file) (prefix0 : bytes) : list (list bytes) :=
  let fq := has_prefix prefix0 [dotc] in                                (* 414 *)
  let prefix := if fq then tl prefix0 else prefix0 in                   (* 415-417 *)
  map (fun f => match pkg f with
                | [] => []                                              (* 428-431 *)
                | _ => if (fq && negb (has_prefix (pkg f) prefix))%bool then []   (* 432-435 *)
                       else find_by_prefix f prefix                     (* 437 *)
                end) fs.
