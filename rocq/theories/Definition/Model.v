(** Model of "go to definition": pkg/lsp/server.go:291-311 (Definition), pkg/lsp/cache.go:252-324
    (FindTypeDescriptorAtLocation, FindDefinitionForTypeDescriptor), pkg/lsp/search.go:853-904
    (findDefinition) and pkg/lsp/references.go:40-74 (FindReferences, as far as the declaration is listed).

    The result cache is that of Compile, the search for a descriptor that of Locate.  A request takes the
    read lock three times, to look up the parse result, the result and the result of the file declaring the
    descriptor, so each lookup comes with a state of its own.  Positions are opaque.  The URI given for a file
    of the cache is a parameter, and the file name in an AST is the path of its file.  Errors of the mapper
    and documents without a path are not in the model. *)
From Coq Require Import Ascii String.
From Verif Require Import Base Strs.
From Verif.Compile Require Model.
From Verif.Locate Require Import Model.
Open Scope list_scope.

Definition path := Compile.Model.path.
Definition rid := Compile.Model.rid.
Definition state := Compile.Model.state.
Definition position := nat.
Definition range := (nat * nat)%type.

(** A result object, as the external compiler made it: its file, its declarations, what the linker has added
    (see Locate), the results its imports were linked with, whether it has a source, where the names of its
    declarations are, and, of its AST, the path to the narrowest token at a position (cache.go:268-293). *)
Record unit_ := mkUnit {
  u_path : path;
  u_tops : list top;
  u_types : way -> target;
  u_io : way -> bool -> desc;
  u_extends : way -> desc;
  u_full : desc -> bytes;
  u_extendee : bytes -> option desc;
  u_group : bool;
  u_links : bytes -> rid;
  u_source : bool;
  u_name : way -> option range;
  u_whole : range;
  u_focus : position -> option (list node)
}.

(** a descriptor of a result: the result and the way down to it, the empty one for the file itself *)
Definition made := (rid * way)%type.

(** [Package]: the answer for packages (Packages); [Error]: the request fails, by an error or by a panic in
    the lookup of a node; [Panics]: the lookup of a file panics (Compile) *)
Inductive answer := Location (uri : bytes) (r : range) | Package | Error | Panics.

Section Definition_.
Variable units : rid -> unit_.
(** cache.go:315 PathToURI *)
Variable uri_of : path -> option bytes.

(** linker contract: the descriptors of another file are those of the result it was linked with *)
Definition made_by (r : rid) (d : desc) : made :=
  match d with Own w => (r, w) | Other f w => (u_links (units r) f, w) end.

(** search.go:853-904: nodes are looked up by the identity of the descriptor's proto, which belongs to one
    result; the file itself is not looked up (886-888) *)
Definition find_definition (d : made) (r : rid) : option range :=
  let (h, w) := d in
  let u := units r in
  match w with
  | [] => if u_source u then Some (u_whole u) else None
  | _ => if Nat.eqb h r then if u_source u then u_name u w else None else None
  end.

(** cache.go:298-324 *)
Definition locate (s : state) (d : made) : answer :=
  match Compile.Model.find_result_or_partial s (u_path (units (fst d))) with
  | Compile.Model.Panicked => Panics
  | Compile.Model.NotFound => Error
  | Compile.Model.Found r =>
      match find_definition d r with
      | None => Error
      | Some g => match uri_of (u_path (units r)) with Some u => Location u g | None => Error end
      end
  end.

(** cache.go:252-296; [None]: no descriptor and no error *)
Inductive at_location := At (d : made) | AtNothing | AtError | AtPanics.
Definition descriptor_at (s1 s2 : state) (doc : path) (q : position) : at_location :=
  match Compile.Model.find_parse s1 doc with
  | Compile.Model.Panicked => AtPanics
  | Compile.Model.NotFound => AtError
  | Compile.Model.Found p =>
      match Compile.Model.find_result_or_partial s2 doc with
      | Compile.Model.Panicked => AtPanics
      | Compile.Model.NotFound => AtError
      | Compile.Model.Found r =>
          match u_focus (units p) q with
          | None => AtNothing
          | Some c =>
              let u := units r in
              match search (table (u_tops u)) (u_types u) (u_io u) (u_extends u) (u_full u) (u_extendee u) (u_group (units p)) c with
              | Found d => At (made_by r d)
              | Nothing => AtNothing
              | Failed => AtError
              end
          end
      end
  end.

(** server.go:291-311 *)
Definition definition (s1 s2 s3 : state) (doc : path) (q : position) : answer :=
  match descriptor_at s1 s2 doc q with
  | At d => locate s3 d
  | AtNothing => Package
  | AtError => Error
  | AtPanics => Panics
  end.

(** references.go:40-74 FindReferences for a descriptor, [uses] being what the search for references gives *)
Definition references (s : state) (d : made) (include : bool) (uses : list (bytes * range)) : option (list (bytes * range)) :=
  if include then match locate s d with Location u g => Some ((u, g) :: uses) | _ => None end else Some uses.
End Definition_.
