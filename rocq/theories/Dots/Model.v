(** Model of completion at the dots of an option's name: pkg/lsp/completion.go:295-356 (GetCompletions, the case of
    ast.OptionNameNode), with deepCompleteOptionNames (875-989) from Offers/Model.v. *)
From Coq Require Import Ascii String.
From Verif Require Import Base Strs.
From Verif.Offers Require Import Model.
Open Scope list_scope.

(** node.Parts: references with their name and the type of the field they refer to
    (FindFieldDescriptorByFieldReferenceNode; [POther]: none), and dots.  [PField None]: a field that is no message *)
Inductive part := Ref (r : ref) (name : bytes) (of : prev) | Dot.
(** the last reference, 338-343 *)
Fixpoint last_ref (ps : list part) : option prev :=
  match ps with
  | [] => None
  | Dot :: r => last_ref r
  | Ref _ _ p :: r => match last_ref r with Some q => Some q | None => Some p end
  end.
(** 317, 324: the index below which nothing is left is [None] *)
Definition back (i n : nat) : option nat := if i <? n then None else Some (i - n).
(** 305-349: what to complete, what is typed, and the reference it is taken to be in.  [i]: the first part that starts
    with the token at the cursor; [before]: the cursor is at the start of that token; [options]: the message of the
    options.  Simplified: NodeInfo of a dot is valid *)
Definition at_part (options : message) (ps : list part) (i : nat) (before : bool) : prev * bytes * option ref :=
  let '(partial, j) :=
    match nth_error ps i with
    | Some Dot =>
        if 0 <? i then
          if before then (match nth_error ps (i - 1) with Some (Ref _ n _) => n | _ => [] end, back i 3)
          else ([], Some (i + 1))
        else ([], Some i)
    | Some (Ref _ _ _) => ([], back i 1)
    | None => ([], Some i)
    end in
  match j with
  | None => (PMsg options, partial, match nth_error ps 0 with Some (Ref r _ _) => Some r | _ => None end)
  | Some j =>
      if List.length ps - 1 <? j then (match last_ref ps with Some p => p | None => POther end, partial, None)
      else match nth_error ps j with Some (Ref r _ p) => (p, partial, Some r) | _ => (POther, partial, None) end
  end.
(** 301-304, 350-356; [None]: no part starts with the token, and there is nothing to complete *)
Definition complete_parts (exts : list bytes) (pkg : bytes) (options : message) (ps : list part) (i : option nat) (before : bool) (pos : nat) : list item :=
  let '(p, partial, r) := match i with Some i => at_part options ps i before | None => (POther, [], None) end in
  complete_names exts pkg [] p partial [] r pos.
