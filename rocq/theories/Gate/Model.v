(** Model of the check that formatting, hints, renaming, completion and highlighting make before they look at a file:
    pkg/lsp/documents.go:107-130 (LatestDocumentContentsWellFormed), on the diagnostics of Diagnostics/Model.v.
    The callers: format.go:15 and inlayhints.go:15 (strict), completion.go:83, rename.go:65, semantic.go:122 and 138
    (not strict). *)
From Coq Require Import Ascii String.
From Verif Require Import Base Strs.
From Verif.Diagnostics Require Import Model.
Open Scope list_scope.

(** what the error of a diagnostic is (errors.As, 121 and 126): a parser.ParseError; a parser.ExtendedSyntaxError with
    what CanFormat answers; or anything else.  Simplified: no error is both. *)
Inductive class := ParseError | Extended (can_format : bool) | OtherError.

Section Classes.
Variable class_of : nat -> class.          (* of the part of a diagnostic that is passed through *)
(** 119-128, for one diagnostic *)
Definition blocks (strict : bool) (d : diag) : bool :=
  match class_of (what d) with
  | ParseError => true
  | Extended c => strict && negb c
  | OtherError => false
  end.
(** 113-130; [None]: the error of URIToPath, 114-117.  118: the answer of GetDiagnosticsForPath without a previous
    result id, which is never "unchanged" *)
Definition well_formed (resolved : option path) (strict : bool) (s : state) : option bool :=
  match resolved with
  | None => None
  | Some p =>
      match fst (get s p None) with
      | Some ds => Some (negb (existsb (blocks strict) ds))
      | None => Some true
      end
  end.
End Classes.
