(** Model of the fixes offered with diagnostics, pkg/lsp/diagnostics.go: codeActionsForError (278-369), with
    tagsForError, severityForError and metadataForError (255-276, 371-388).

    Columns count bytes (the library counts them so for texts of one-byte characters without tabs).  The
    kinds of errors are those the functions tell apart; all others are [Other]. *)
From Coq Require Import Ascii String.
From Verif Require Import Base Strs.
Open Scope list_scope.

Definition nl : ascii := "010"%char.
Definition pos := (nat * nat)%type.               (* line and character, from 0 *)
Record edit := mkEdit { e_from : pos; e_to : pos; e_text : bytes }.
(** ast.SourcePos: line and column, from 1 *)
Record spos := mkSpos { p_line : nat; p_col : nat }.
(** an undeclared name comes with the end of the last token of its file (tokens.Previous(eof), 313-318) *)
Inductive problem := UnusedImport (path : bytes) | UndeclaredName (name hint : bytes) (last_end : spos) | Other.
Inductive action_kind := OrganizeImports | QuickFix.
Record action := mkAction { a_title : bytes; a_kind : action_kind; a_preferred : bool; a_edits : list edit; a_select : option (pos * pos); a_reveal : option (pos * pos) }.

(** diagnostics.go:321-324 fmt.Sprintf("\n\nmessage %s {\n  \n}", name) *)
Definition definition_text (name : bytes) : bytes :=
  [nl; nl] ++ b_ "message " ++ name ++ b_ " {" ++ [nl] ++ b_ "  " ++ [nl] ++ b_ "}".
Definition contains_dot (n : bytes) : bool := existsb (Ascii.eqb ".") n.

(** 278-369; [start] and [stop] are the span of the error *)
Definition code_actions (p : problem) (start stop : spos) : list action :=
  match p with
  | UnusedImport _ =>
      [mkAction (b_ "Remove unused import") OrganizeImports true [mkEdit (p_line start - 1, 0) (p_line stop, 0) []] None None]
  | UndeclaredName name _ e =>
      if contains_dot name then []
      else
        let ins := (p_line e - 1, p_col e - 1) in
        [mkAction (b_ "Add definition for " ++ name ++ b_ " in this file") QuickFix false
          [mkEdit ins ins (definition_text name)]
          (Some ((p_line e + 2, 2), (p_line e + 2, 2)))
          (Some ((p_line e + 1, 0), (p_line e + 3, 1)))]
  | Other => []
  end.

Inductive severity := Error | Warning.
(** 255-276 *)
Definition unnecessary (p : problem) : bool := match p with UnusedImport _ => true | _ => false end.
Definition severity_for (original : severity) (p : problem) : severity := match p with UnusedImport _ => Warning | _ => original end.
(** 371-388 *)
Definition metadata (p : problem) : list (bytes * bytes) :=
  match p with
  | UnusedImport path => [(b_ "kind", b_ "unusedImport"); (b_ "path", path)]
  | UndeclaredName n h _ => [(b_ "kind", b_ "undeclaredName"); (b_ "name", n); (b_ "hint", h)]
  | Other => []
  end.
