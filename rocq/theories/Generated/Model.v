(** Go names and generated Go files: pkg/x/protogen/strs/strs.go, pkg/lsp/generated.go and the parts of
    pkg/lsp/golang.go that read generated files.  Names are bytes; proto identifiers are ASCII. *)
From Coq Require Import Ascii String.
From Verif Require Import Base Strs.
Open Scope list_scope.

(** ** strs.go *)

Definition code (c : ascii) : nat := nat_of_ascii c.
(** strs.go:77-87 *)
Definition is_lower (c : ascii) : bool := ((97 <=? code c) && (code c <=? 122))%bool.
Definition is_upper (c : ascii) : bool := ((65 <=? code c) && (code c <=? 90))%bool.
Definition is_digit (c : ascii) : bool := ((48 <=? code c) && (code c <=? 57))%bool.
Definition is_letter (c : ascii) : bool := (is_lower c || is_upper c)%bool.
Definition dot : ascii := "."%char.
Definition under : ascii := "_"%char.
(** strs.go:64 *)
Definition to_upper (c : ascii) : ascii := if is_lower c then ascii_of_nat (code c - 32) else c.

Definition next_lower (s : bytes) : bool := match s with c :: _ => is_lower c | [] => false end.
Definition boundary (prev : option ascii) : bool := match prev with None => true | Some c => Ascii.eqb c dot end.

(** strs.go:39-75 GoCamelCase: one loop with the previous character ([None] at the start) and whether the
    inner loop (69-71) is running *)
Fixpoint camel (prev : option ascii) (run : bool) (s : bytes) : bytes :=
  match s with
  | [] => []
  | c :: r =>
      if (run && is_lower c)%bool then c :: camel (Some c) true r
      else if Ascii.eqb c dot then
        if next_lower r then camel (Some c) false r else under :: camel (Some c) false r
      else if (Ascii.eqb c under && boundary prev)%bool then "X"%char :: camel (Some c) false r
      else if (Ascii.eqb c under && next_lower r)%bool then camel (Some c) false r
      else if is_digit c then c :: camel (Some c) false r
      else to_upper c :: camel (Some c) true r
  end.
Definition go_camel_case (s : bytes) : bytes := camel None false s.

(** go/token's keywords *)
Definition keywords : list bytes := map b_
  ["break"; "case"; "chan"; "const"; "continue"; "default"; "defer"; "else"; "fallthrough"; "for"; "func"; "go"; "goto";
   "if"; "import"; "interface"; "map"; "package"; "range"; "return"; "select"; "struct"; "switch"; "type"; "var"]%string.
Definition is_keyword (s : bytes) : bool := existsb (beq s) keywords.

(** strs.go:16-33 GoSanitized for ASCII text (letters and digits are unicode.IsLetter and unicode.IsDigit below
    128; simplified: other bytes are treated as invalid characters) *)
Definition sanitize_char (c : ascii) : ascii := if (is_letter c || is_digit c)%bool then c else under.
Definition go_sanitized (s : bytes) : bytes :=
  let s' := map sanitize_char s in
  if (is_keyword s' || negb (match s' with c :: _ => is_letter c | [] => false end))%bool then under :: s' else s'.

(** ** generated.go: which Go declaration is looked up *)

(** A descriptor: messages are named by the path of enclosing messages and the own name; [oneof]: the field is a
    member of a oneof; a top-level element has an empty scope. *)
Inductive desc :=
| DMessage (path : list bytes)
| DEnum (path : list bytes)
| DService (name : bytes)
| DMethod (service name : bytes)
| DEnumValue (enum : list bytes) (name : bytes)
| DField (message : list bytes) (name : bytes) (oneof : bool)
| DExtension (scope : list bytes) (name : bytes).

(** a declaration at package level, or a method or field in one *)
Inductive go_decl := TopLevel (name : bytes) | Member (type name : bytes).

Definition dotted (path : list bytes) : bytes := join_with dot path.
(** generated.go:158, names relative to the package *)
Definition type_ident (path : list bytes) : bytes := go_camel_case (dotted path).

(** generated.go:37-116 and GoIdent 150-161 *)
Definition looked_up (d : desc) : go_decl :=
  match d with
  | DMessage p | DEnum p => TopLevel (type_ident p)
  | DService n => TopLevel (type_ident [n] ++ b_ "Server")
  | DMethod s n => Member (type_ident [s] ++ b_ "Server") (go_camel_case n)
  | DEnumValue e n =>
      let prefix := match removelast e with [] => type_ident e | container => type_ident container end in
      TopLevel (prefix ++ under :: go_sanitized n)
  | DField m n _ => Member (type_ident m) (go_camel_case n)
  | DExtension _ n => TopLevel (b_ "E_" ++ go_camel_case n)
  end.

(** ** golang.go: generated files *)

(** a comment group in front of or after the package clause: the comments' texts *)
Record group := mkGroup { before_package : bool; texts : list bytes }.
Record preamble := mkPre { p_source : bytes; p_versions : list (bytes * bytes) }.

Definition generated_prefix : bytes := b_ "// Code generated".
Definition do_not_edit : bytes := b_ "DO NOT EDIT".
(** golang.go:407 doNotEditRegex on a line comment; the captured generator name is left out *)
Definition is_marker (t : bytes) : bool :=
  (has_prefix t generated_prefix &&
   let rest := skipn (List.length generated_prefix) t in (has_suffix rest do_not_edit || has_suffix rest (do_not_edit ++ [dot])))%bool.

(** strings.TrimSpace for ASCII *)
Definition is_space (c : ascii) : bool := existsb (Ascii.eqb c) [" "%char; "009"%char; "010"%char; "011"%char; "012"%char; "013"%char].
Fixpoint trim_left (s : bytes) : bytes := match s with c :: r => if is_space c then trim_left r else s | [] => [] end.
Definition trim_space (s : bytes) : bytes := rev (trim_left (rev (trim_left s))).

Definition source_prefix : bytes := b_ "// source:".
Definition versions_prefix : bytes := b_ "// versions:".

Section Preamble.
(** the two groups captured by versionEntryRegex (golang.go:408) when it matches *)
Variable captures : bytes -> option (bytes * bytes).
(** versionEntryRegex needs a space or dash after "// " *)
Definition version_entry (t : bytes) : option (bytes * bytes) :=
  match t with
  | "/"%char :: "/"%char :: " "%char :: c :: _ => if (is_space c || Ascii.eqb c "-"%char)%bool then captures t else None
  | _ => None
  end.
(** golang.go:439-448: the inner loop *)
Fixpoint version_loop (ts : list bytes) : list (bytes * bytes) :=
  match ts with
  | [] => []
  | t :: r => match version_entry t with Some e => e :: version_loop r | None => [] end
  end.
(** golang.go:436-452; [ts] is group.List[i+1:] *)
Fixpoint preamble_loop (ts : list bytes) (p : preamble) : preamble :=
  match ts with
  | [] => p
  | t :: r =>
      preamble_loop r
        (if has_prefix t versions_prefix then mkPre (p_source p) (p_versions p ++ version_loop ts)
         else if has_prefix t source_prefix then mkPre (trim_space (skipn (List.length source_prefix) t)) (p_versions p)
         else p)
  end.
(** golang.go:414-431: the first group in front of the package clause with a marker *)
Fixpoint find_group (gs : list group) : option (list bytes) :=
  match gs with
  | [] => None
  | g :: r => if (before_package g && existsb is_marker (texts g))%bool then Some (texts g) else find_group r
  end.
(** golang.go:411-455 ParseGeneratedPreamble *)
Definition parse_preamble (gs : list group) : preamble * bool :=
  match find_group gs with
  | None => (mkPre [] [], false)
  | Some ts => (match ts with [] => mkPre [] [] | _ :: r => preamble_loop r (mkPre [] []) end, true)
  end.

(** a Go file in the package directory: package name, file name, comments *)
Record gofile := mkGo { g_pkg : bytes; g_name : bytes; g_comments : list group }.

(** golang.go:127-158, the loop over parsed files; [uri_path]: the document's path *)
Definition keep_file (alias source uri_path : bytes) (f : gofile) : bool :=
  if (negb (beq alias []) && negb (beq (g_pkg f) alias))%bool then false
  else
    let '(p, ok) := parse_preamble (g_comments f) in
    if ok then true
    else if negb (beq source []) then beq source (p_source p)
    else beq (path_base (g_name f)) (path_base uri_path).
Definition find_generated (alias source uri_path : bytes) (fs : list gofile) : list gofile := filter (keep_file alias source uri_path) fs.
End Preamble.

Definition semicolon : ascii := ";"%char.
Fixpoint cut (c : ascii) (s : bytes) : bytes * bytes :=
  match s with
  | [] => ([], [])
  | x :: r => if Ascii.eqb x c then ([], r) else let '(a, b) := cut c r in (x :: a, b)
  end.
(** golang.go:95-114: package path and package name from the go_package option and the path implied by the
    document's place ([None]: error) *)
Definition go_package (opt : bytes) (is_file : bool) (implicit : option bytes) : option (bytes * bytes) :=
  match (if (beq opt [] && is_file)%bool then implicit else Some opt) with
  | None => None
  | Some p =>
      if existsb (Ascii.eqb semicolon) p then Some (cut semicolon p)
      else if (is_file && negb (existsb (Ascii.eqb slash) p) && negb (existsb (Ascii.eqb dot) p))%bool
      then match implicit with None => None | Some ip => Some (ip, p) end
      else Some (p, [])
  end.

(** golang.go:294: the variable looked up for the raw descriptor *)
Definition replace_char (a b : ascii) (s : bytes) : bytes := map (fun c => if Ascii.eqb c a then b else c) s.
Definition raw_desc_symbol (source : bytes) : bytes :=
  b_ "file_" ++ replace_char dot under (replace_char slash under source) ++ b_ "_rawDesc".

(** generated.go:163-181 tryResolvePathToGeneratedImport; [imports]: the import paths of the files in order *)
Fixpoint candidates (suffix : bytes) (imports acc : list bytes) : list bytes :=
  match imports with
  | [] => acc
  | p :: r => candidates suffix r (if (has_suffix p suffix && negb (existsb (beq p) acc))%bool then acc ++ [p] else acc)
  end.
Definition resolve_import (imports : list bytes) (path : bytes) : option bytes :=
  match candidates (path_dir path) imports [] with
  | [c] => Some (path_join c (path_base path))
  | _ => None
  end.
