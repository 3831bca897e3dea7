(** Model of the types that the refactorings of messages write for moved fields: pkg/lsp/refactor.go extractFields
    (545-570) and inlineMessageFields (727-761).  Names are those of the compiled file; the shortening of names is
    completion.go relativeFullName (Completion/Model.v, C30). *)
From Coq Require Import Ascii String.
From Verif Require Import Base Strs.
From Verif.Completion Require Import Model.
Import ListNotations.
Open Scope list_scope.

(** protoreflect.Kind (library), with the name of a scalar kind, or the full name of the message or enum.  Groups, and
    in editions fields with delimited encoding, are of kind GroupKind. *)
Inductive kind := KScalar (w : bytes) | KMessage (full : bytes) | KGroup (full : bytes) | KEnum (full : bytes).

Inductive label := LNone | LOptional | LRequired | LRepeated.
(** A field of a compiled message: its kind, the type and label as they are written in the file, and whether it is a map field
    (whose kind is that of a message: its entry). *)
Record field := Field { f_kind : kind; f_written : bytes; f_label : label; f_map : bool }.

(** refactor.go:547-569: only the types of kind MessageKind are written anew.  A name that is split at its dots and put
    together again, or is the one that stands there already, is the same text. *)
Definition extracted_type (pkg : bytes) (f : field) : bytes :=
  match f_kind f with KMessage full => relative_full_name full pkg | _ => f_written f end.
(** 570-578: the label is kept *)
Definition extract (pkg : bytes) (f : field) : label * bytes := (f_label f, extracted_type pkg f).

(** refactor.go:739-747; Kind.String (library) *)
Definition inlined_type (pkg : bytes) (f : field) : bytes :=
  match f_kind f with
  | KMessage full | KEnum full => relative_full_name full pkg
  | KScalar w => w
  | KGroup _ => b_ "group"
  end.
(** 730-733, 753-760 *)
Definition inline (proto2 : bool) (pkg : bytes) (f : field) : label * bytes :=
  (if proto2 then LOptional else LNone, inlined_type pkg f).
