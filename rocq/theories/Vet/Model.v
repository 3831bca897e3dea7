(** Model of how problems are reported outside of an editor: sdk/driver/driver.go:96-188 (the part of
    Driver.Compile that turns diagnostics into messages), pkg/lsp/externalapi.go:12-27 (XGetAllDiagnostics) and
    pkg/protols/commands/vet.go:17-33.

    Inputs: the diagnostics of each path after the files are loaded, already with the severities of
    diagnostics.go:65-83 (Diagnostics, C13), and their ranges (Ranges); the URI of a path (Resolver); the text
    the mapper has for a URI; and the path that driver.go:139-150 shows for it (filepath.Rel, Paths).  Maps are
    lists, in any order.  The mapper's PositionOffset is that of Documents.  What Compile does from line 189 on, if
    there is no error, is in Sdk. *)
From Coq Require Import Ascii String NArith DecimalString.
From Verif Require Import Base Strs.
From Verif.Documents Require Import Model.
From Verif.Ranges Require Import Model.
Open Scope list_scope.

(** protocol.Diagnostic; severities are 1 (error), 2 (warning), 3 (information), 4 (hint);
    [d_unnecessary]: it has the tag Unnecessary *)
Record diagnostic := mkD { d_sev : nat; d_unnecessary : bool; d_range : range; d_msg : bytes }.

Definition esc : ascii := "027".
Definition reset : bytes := esc :: b_ "[0m".
Definition dim : bytes := esc :: b_ "[2m".
(** driver.go:82-87 severityToColor; a missing key gives the empty string *)
Definition color (sev : nat) : bytes :=
  match sev with 1 => esc :: b_ "[31m" | 2 => esc :: b_ "[33m" | 3 => esc :: b_ "[32m" | 4 => esc :: b_ "[34m" | _ => [] end.
(** driver.go:89-94 severityMsg *)
Definition severity_msg (sev : nat) : bytes :=
  match sev with
  | 1 => color 1 ++ b_ "error" ++ reset
  | 2 => color 2 ++ b_ "warning" ++ reset
  | 3 => color 3 ++ b_ "info" ++ reset
  | 4 => color 4 ++ b_ "hint" ++ reset
  | _ => []
  end.
(** "%d" *)
Definition decimal (n : N) : bytes := b_ (NilEmpty.string_of_uint (N.to_uint n)).
(** driver.go:152 *)
Definition source (shown : bytes) (line : N) : bytes := dim ++ shown ++ b_ ":" ++ decimal (add32 line 1) ++ reset.
(** driver.go:155-163 and 179-185 *)
Definition plain_message (shown : bytes) (d : diagnostic) : bytes :=
  severity_msg (d_sev d) ++ b_ ": " ++ source shown (fst (fst (d_range d))) ++ b_ " " ++ d_msg d.
(** driver.go:167-177: a range that does not fit the line becomes the whole line *)
Definition columns (line : text) (d : diagnostic) : nat * nat :=
  let c1 := N.to_nat (snd (fst (d_range d))) in
  let c2 := N.to_nat (snd (snd (d_range d))) in
  let n := List.length line in
  if ((n <? c1) || (n <? c2) || (c2 <? c1))%bool then (0, n) else (c1, c2).
Definition highlighted (line : text) (d : diagnostic) : bytes :=
  let '(c1, c2) := columns line d in
  (dim ++ firstn c1 line ++ reset) ++ (color (d_sev d) ++ slice line c1 c2 ++ reset) ++ (dim ++ skipn c2 line ++ reset).
Definition full_message (shown : bytes) (line : text) (d : diagnostic) : bytes :=
  plain_message shown d ++ newline :: "009"%char :: highlighted line d.

Inductive outcome (A : Type) := Failed | Panics | Done (a : A).
Arguments Failed {A}. Arguments Panics {A}. Arguments Done {A} a.

(** driver.go:111-187, one diagnostic of a document with text [t]: its message if it has one *)
Definition describe (shown : bytes) (t : text) (d : diagnostic) : outcome (list bytes) :=
  let '((l1, _), (l2, _)) := d_range d in
  if (l1 =? l2)%N then
    match poff t (N.to_nat l1) 0, poff t (N.to_nat (add32 l2 1)) 0 with
    | Some s, Some e =>
        if ((d_sev d <=? 2) && negb (d_unnecessary d))%bool then
          if e <=? s then Panics                        (* 166: Content[s:e-1], also for e = 0 *)
          else Done [full_message shown (slice t s (e - 1)) d]
        else Done [plain_message shown d]
    | _, _ => Failed                                    (* 128-130 *)
    end
  else Done [].

(** the loops of driver.go:110 and 105; the first failure ends Compile *)
Fixpoint describe_all (shown : bytes) (t : text) (ds : list diagnostic) : outcome (list bytes) :=
  match ds with
  | [] => Done []
  | d :: r =>
      match describe shown t d with
      | Done m => match describe_all shown t r with Done ms => Done (m ++ ms) | o => o end
      | o => o
      end
  end.
Definition is_error (d : diagnostic) : bool := d_sev d =? 1.

Section Documents.
Variable uri_of : bytes -> option bytes.            (** resolver.PathToURI *)
Variable text_of : bytes -> option text.            (** cache.XGetMapper; [None]: an error *)
Variable shown_of : bytes -> bytes.                 (** driver.go:139-150 *)

(** externalapi.go:18-25; simplified: paths are taken to have different URIs (C63), as res[uri] keeps one of them *)
Fixpoint all_diagnostics (ps : list (bytes * list diagnostic)) : option (list (bytes * list diagnostic)) :=
  match ps with
  | [] => Some []
  | (p, ds) :: r =>
      match uri_of p, all_diagnostics r with Some u, Some us => Some ((u, ds) :: us) | _, _ => None end
  end.
Fixpoint describe_documents (us : list (bytes * list diagnostic)) : outcome (list bytes) :=
  match us with
  | [] => Done []
  | (u, ds) :: r =>
      match text_of u with
      | None => Failed                                  (* 106-109 *)
      | Some t =>
          match describe_all (shown_of u) t ds with
          | Done m => match describe_documents r with Done ms => Done (m ++ ms) | o => o end
          | o => o
          end
      end
  end.
(** driver.go:96-188: results.Error and results.Messages *)
Definition compile (ps : list (bytes * list diagnostic)) : outcome (bool * list bytes) :=
  match all_diagnostics ps with
  | None => Failed
  | Some us =>
      match describe_documents us with
      | Done ms => Done (existsb (fun u => existsb is_error (snd u)) us, ms)
      | Failed => Failed
      | Panics => Panics
      end
  end.
(** vet.go:17-33: what is printed, and whether the command succeeds *)
Definition vet (ps : list (bytes * list diagnostic)) : list bytes * bool :=
  match compile ps with
  | Done (failed, ms) => (ms, negb failed)
  | _ => ([], false)
  end.
End Documents.
