(** Model of what completion offers while statements and values are typed, pkg/lsp/completion.go (line numbers
    without a file): imports (417-450, completeImports 1102-1144, resolver.go findImportPathsByPrefix 624-634), syntax
    versions (482-493, 1146-1168), keywords (completeKeywords 991-1013, messageKeywordCompletions 1315-1322,
    fileKeywordCompletions 1324-1347, isProto2 1308-1313), values (completeFieldLiteralValues 661-713,
    completeEnumValues 1170-1193) and names of fields in message literals (142-187, fieldCompletion 744-811).

    A line of text is a list of ASCII characters, so that a column is an offset (C61 is about other characters), with
    the line break at its end if there is one.  Labels, kinds, details and documentation of the items are left out,
    as is the order of imports.  strings.TrimSpace is Cel.Model.trim. *)
From Coq Require Import Ascii String.
From Verif Require Import Base Strs.
From Verif.Completion Require Model.
From Verif.Offers Require Import Model.
From Verif.Cel Require Model.
Import ListNotations.
Open Scope list_scope.

Definition dq : ascii := ascii_of_nat 34.
Definition lf : ascii := ascii_of_nat 10.
(** strings.IndexRune *)
Fixpoint index (c : ascii) (s : bytes) : option nat :=
  match s with [] => None | x :: r => if Ascii.eqb x c then Some 0 else option_map S (index c r) end.

(** ** Imports *)
(** the files that are known, by URI and path; a URI is a number *)
Definition known := list (nat * bytes).
Inductive offer := Keyword (w : bytes) | Change (e : edit).
(** fmt.Sprintf("%q") of a path without quotes, backslashes and control characters *)
Definition quoted (s : bytes) : bytes := dq :: s ++ [dq].
(** 1102-1144 *)
Definition import_items (files : known) (existing : list nat) (partial suffix : bytes) (pos : nat) (quotes : bool) : list edit :=
  map (fun '(_, p) => let t := Completion.Model.trim_prefix p partial in mkEdit pos (pos + List.length suffix) (if quotes then quoted t else t))
    (filter (fun '(u, p) => has_prefix p partial && negb (existsb (Nat.eqb u) existing)) files).
(** 417-450; [public]: the statement has the keyword; [nameless]: it has no path *)
Definition at_import (files : known) (existing : list nat) (line : bytes) (pos : nat) (public nameless : bool) : list offer :=
  let before := firstn pos line in let after := skipn pos line in let quote := index dq before in
  (match quote with None => if public then [] else [Keyword (b_ "public")] | Some _ => [] end) ++
  (if (match quote with Some _ => true | None => false end) || nameless then
     map Change (import_items files existing
       (match quote with Some q => Cel.Model.trim (skipn (S q) before) | None => [] end)
       (match index dq after with Some q => Cel.Model.trim (firstn q after) | None => [] end) pos nameless)
   else []).

(** ** Syntax: 482-493, 1146-1168 *)
Definition versions : list bytes := [b_ "proto2"; b_ "proto3"].
Definition at_syntax (line : bytes) (pos : nat) : list edit :=
  let before := firstn pos line in let after := skipn pos line in
  match index dq before with
  | None => []
  | Some q =>
      let partial := Cel.Model.trim (skipn (S q) before) in
      let suffix := match index dq after with Some q => Cel.Model.trim (firstn q after) | None => [] end in
      map (fun v => mkEdit pos (pos + List.length suffix) (Completion.Model.trim_prefix v partial)) (filter (fun v => has_prefix v partial) versions)
  end.

(** ** Words that replace what is typed: 991-1013, 1170-1193 *)
Definition words (ws : list bytes) (partial suffix : bytes) (pos : nat) : list edit :=
  map (mkEdit (pos - List.length partial) (pos + List.length suffix)) (filter (fun w => has_prefix w partial) ws).

(** ** Keywords *)
(** what the file begins with *)
Inductive header := NoHeader | Syntax (version : bytes) | Edition (version : bytes).
(** ast.FileNode.Syntax is nil in files with an edition *)
Definition syntax_node (h : header) : option bytes := match h with Syntax v => Some v | _ => None end.
(** 1308-1313 *)
Definition is_proto2 (h : header) : bool := match syntax_node h with None => true | Some v => beq v (b_ "proto2") end.
(** 1315-1322 *)
Definition message_keywords (h : header) : list bytes :=
  [b_ "option"; b_ "optional"; b_ "repeated"; b_ "enum"; b_ "message"; b_ "reserved"] ++
  (if is_proto2 h then [b_ "required"; b_ "extend"; b_ "group"] else []).
(** 1324-1347; the snippets for a whole statement are left out *)
Definition file_keywords (h : header) (package : bool) : list bytes :=
  match syntax_node h with None => [b_ "syntax"] | Some _ => [] end ++
  (if package then [] else [b_ "package"]) ++ [b_ "import"; b_ "option"; b_ "message"; b_ "enum"; b_ "service"; b_ "extend"].
(** the name under the cursor: from 524, 1517 findPartialNames *)
Definition at_message (h : header) (line : bytes) (start stop pos : nat) : list edit :=
  let '(p, s) := find_partial line start stop pos in words (message_keywords h) p s pos.
Definition at_file (h : header) (package : bool) (line : bytes) (start stop pos : nat) : list edit :=
  let '(p, s) := find_partial line start stop pos in words (file_keywords h package) p s pos.

(** ** Values: 661-713 *)
Inductive vtype := VMessage (map_entry : bool) | VEnum (values : list bytes) | VBool | VOther.
Definition braces : bytes := b_ "{" ++ lf :: b_ "  ${0}" ++ lf :: b_ "}".
(** [value]: the columns of the value, if there is one *)
Definition at_value (t : vtype) (line : bytes) (value : option (nat * nat)) (pos : nat) : list edit :=
  let '(p, s) := match value with Some (a, b) => find_partial line a b pos | None => ([], []) end in
  match t with
  | VMessage m => if m then [] else match value with None => [mkEdit pos pos braces] | Some _ => [] end
  | VEnum vs => words vs p s pos
  | VBool => words [b_ "true"; b_ "false"] p s pos
  | VOther => []
  end.

(** ** Fields of message literals *)
Inductive fkind := FMessage (map_entry : bool) | FScalar.
Record lfield := mkLField { lname : bytes; lrepeated : bool; lkind : fkind }.
(** 764-769 *)
Inductive fstyle := LiteralStyle | OptionStyle.
Definition operator (s : fstyle) : bytes := match s with LiteralStyle => b_ ": " | OptionStyle => b_ " = " end.
(** 744-811; without an edit, clients insert the label *)
Definition field_text (s : fstyle) (f : lfield) : bytes :=
  if lrepeated f then lname f ++ operator s ++ b_ "[${0}]"
  else match lkind f with
       | FMessage true => lname f
       | FMessage false => lname f ++ operator s ++ braces
       | FScalar => lname f ++ operator s
       end.
(** what the message literal is a value of: a message, or an extension of message type *)
Inductive ltype := OfMessage (fs : list lfield) | OfExtension (fs : list lfield).
Definition is_single (fs : list lfield) (n : bytes) : bool :=
  match find (fun f => beq (lname f) n) fs with Some f => negb (lrepeated f) | None => false end.
(** 142-187; [present]: the names of the fields in the literal *)
Definition at_literal (t : ltype) (present : list bytes) (pos : nat) : list edit :=
  match t with
  | OfMessage fs =>
      map (fun f => mkEdit pos pos (field_text LiteralStyle f))
        (filter (fun f => negb (mem (lname f) (filter (is_single fs) present))) fs)
  | OfExtension fs => map (fun f => mkEdit pos pos (field_text OptionStyle f)) fs
  end.
