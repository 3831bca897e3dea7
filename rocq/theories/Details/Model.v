(** Model of what is shown beside a field or type that completion offers: pkg/lsp/completion.go:813-828
    (fieldTypeDetail), 744-776 (fieldCompletion), 925-931 (completeOptionOrExtensionName), 1216-1227
    (newExtensionFieldCompletionItem) and 1538-1553 (maybeResolveImport). *)
From Coq Require Import Ascii String.
From Verif Require Import Base Strs.
From Verif.Completion Require Import Model.
Open Scope list_scope.

(** protoreflect.Kind, with the full names of the types; [KMap]: a message that is a map entry, with the full names and
    the kinds of its two fields *)
Inductive kind :=
| KScalar (keyword : bytes)
| KEnum (full : bytes)
| KGroup (full : bytes)
| KMessage (full : bytes)
| KMap (entry key_field : bytes) (key : bytes) (value_field : bytes) (value : kind).
(** protoreflect.Kind.String (google.golang.org/protobuf/reflect/protoreflect) *)
Definition kind_string (k : kind) : bytes :=
  match k with KScalar s => s | KEnum _ => b_ "enum" | KGroup _ => b_ "group" | KMessage _ | KMap _ _ _ _ _ => b_ "message" end.
(** protoreflect.FieldDescriptor *)
Record field := mkField { f_full : bytes; f_extension : bool; f_repeated : bool; f_kind : kind }.
(** 813-828 *)
Definition type_detail (f : field) : bytes :=
  if f_extension f then append (parent (f_full f)) (b_ "(" ++ name (f_full f) ++ b_ "): " ++ kind_string (f_kind f))
  else match f_kind f with
  | KMap _ k _ v _ => b_ "map<" ++ k ++ b_ ", " ++ v ++ b_ ">"
  | KMessage n => n
  | k => kind_string k
  end.
(** 754, 772-774: in a message literal *)
Definition literal_detail (f : field) : bytes := if f_repeated f then b_ "repeated " ++ type_detail f else type_detail f.
(** 929, 1225: in the name of an option *)
Definition option_detail (f : field) : bytes := type_detail f.

(** 1538-1553.  [visible]: the resolver of the file finds the name; [same_package]: of the file of the descriptor and the
    one that is edited; [path]: of the file of the descriptor, as fmt's %q writes it.  The result is the detail and
    whether an import is added. *)
Definition resolve_import (visible same_package : bool) (path label detail : bytes) : bytes * bool :=
  if visible then (if same_package then detail else detail ++ b_ " (from " ++ path ++ b_ ")", false)
  else (if beq label detail then b_ "from " ++ path else detail ++ b_ " (from " ++ path ++ b_ ")", true).
