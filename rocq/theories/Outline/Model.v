(** Model of the document outline, pkg/lsp/symbols.go:28-49 and 151-269, and of
    the code lenses, pkg/lsp/codelens.go. *)
From Coq Require Import Ascii String.
From Verif Require Import Base Strs.
Open Scope list_scope.

(** offsets of the first character and after the last; the code has lines and
    columns *)
Definition range := (nat * nat)%type.

(** what a declaration's name and place are *)
Record info := mkInfo { i_name : bytes; i_range : range; i_name_range : range }.

(** Declarations (ast.FileNode.Decls and the bodies). A field's flag is that it
    is complete (not IsIncomplete). *)
Inductive decl :=
| Message (i : info) (body : list decl)
| Enum (i : info) (body : list decl)
| EnumValue (i : info)
| Field (complete : bool) (i : info)
| MapField (i : info)
| Oneof (i : info) (body : list decl)
| Group (i : info) (body : list decl)
| Extend (r : range) (body : list decl)
| Service (i : info) (body : list decl)
| Rpc (i : info)
| OtherDecl.

Inductive kind := KClass | KEnum | KMember | KField | KInterface | KMethod.

(** protocol.DocumentSymbol without its detail text *)
Inductive symbol := Sym (k : kind) (i : info) (children : list symbol).

(** enumSymbols, 201-220 *)
Definition enum_child (d : decl) : list symbol :=
  match d with EnumValue i => [Sym KMember i []] | _ => [] end.
Definition enum_symbol (i : info) (body : list decl) : symbol := Sym KEnum i (flat_map enum_child body).

(** extendSymbols, 222-240 *)
Definition extend_child (d : decl) : list symbol :=
  match d with Field true i => [Sym KField i []] | _ => [] end.
Definition extend_symbols (body : list decl) : list symbol := flat_map extend_child body.

(** serviceSymbols, 242-269 *)
Definition service_child (d : decl) : list symbol :=
  match d with Rpc i => [Sym KMethod i []] | _ => [] end.
Definition service_symbol (i : info) (body : list decl) : symbol := Sym KInterface i (flat_map service_child body).

(** the switch of messageSymbols, 161-196, with messageSymbols itself *)
Fixpoint message_child (d : decl) : list symbol :=
  match d with
  | Field true i => [Sym KField i []]
  | Field false _ => []                         (* 164 *)
  | MapField i => [Sym KField i []]
  | Message i body => [Sym KClass i (flat_map message_child body)]
  | Enum i body => [enum_symbol i body]
  | Extend _ body => extend_symbols body
  | EnumValue _ | Oneof _ _ | Group _ _ | Service _ _ | Rpc _ | OtherDecl => []
  end.

(** the switch of documentSymbolsForFileLocked, 36-47 *)
Definition top_child (d : decl) : list symbol :=
  match d with
  | Message i body => [Sym KClass i (flat_map message_child body)]
  | Enum i body => [enum_symbol i body]
  | Extend _ body => extend_symbols body
  | Service i body => [service_symbol i body]
  | _ => []
  end.
Definition outline (file : list decl) : list symbol := flat_map top_child file.

(** ** Code lenses, codelens.go:11-80 *)

Inductive lens := GenerateFile (uri : bytes) | GeneratePackage (uris : list bytes) | GenerateWorkspace.

(** a file of the workspace's results: its path, its package *)
Record entry := mkEntry { e_path : bytes; e_package : bytes }.

Section Lens.
  Variable local : bytes -> bool.               (* IsRealWorkspaceLocalFile *)
  Variable uri_of : bytes -> option bytes.      (* PathToURI *)

  (** RangeFilesByPackage is third-party code, taken by its contract *)
  Definition package_uris (files : list entry) (pkg : bytes) : list bytes :=
    flat_map (fun e => match uri_of (e_path e) with Some u => [u] | None => [] end)
             (filter (fun e => beq (e_package e) pkg) files).

  (** [parsed]: the file's package and whether it has the nogenerate pragma, if
      there is a parse result. None is an error. *)
  Definition lenses (files : list entry) (uri : bytes) (parsed : option (bytes * bool)) : option (list lens) :=
    if negb (local uri) then Some []
    else match parsed with
         | None => None
         | Some (_, true) => Some []
         | Some (pkg, false) =>
             Some ([GenerateFile uri]
                   ++ (if beq pkg [] then [] else [GeneratePackage (package_uris files pkg)])
                   ++ [GenerateWorkspace])
         end.
End Lens.
