(** Model of references: pkg/lsp/references.go:41-73 (FindReferences) with
    11-29 (FindReferenceLocationsForTypeDescriptor), and of package names:
    pkg/lsp/packages.go. The search for the references to a symbol
    (findNodeReferences) is modelled in the Search area; here its result is
    given. *)
From Coq Require Import Ascii String.
From Verif Require Import Base Strs.
Open Scope list_scope.

Definition dot : ascii := "."%char.

(** Offsets of the first character and after the last. The code has lines and
    columns, and the empty range 0:0-0:0 for "none", which no package name can
    have because of the keyword before it. *)
Definition range := (nat * nat)%type.

(** an identifier: its token, its text, its range if it has a valid one *)
Record ident := mkIdent { i_tok : nat; i_val : bytes; i_at : option range }.

(** ast.PackageNode.Name; FilterIdents drops the dots of a compound name *)
Inductive pname := Simple (i : ident) | Compound (whole : option range) (idents : list ident).
Inductive decl := Package (name : option pname) | OtherDecl.

Record file := mkFile {
  f_path : bytes;
  f_placeholder : bool;
  f_package : bytes;                  (* the name it is indexed by *)
  f_decls : option (list decl) }.     (* AST() *)

(** packages.go:45-57: the identifier under the cursor, the name up to it and
    whether more follows. The tokens of a compound name are in order and an
    identifier is one token. *)
Fixpoint cursor_in (tok : nat) (before : list bytes) (idents : list ident) : option (bytes * bool) :=
  match idents with
  | [] => None
  | i :: rest =>
      if i_tok i =? tok
      then Some (join_with dot (before ++ [i_val i]), match rest with [] => false | _ => true end)
      else cursor_in tok (before ++ [i_val i]) rest
  end.

(** 38-63: only the first package declaration is looked at *)
Fixpoint cursor_name (tok : nat) (ds : list decl) : option (bytes * bool) :=
  match ds with
  | [] => None
  | OtherDecl :: r => cursor_name tok r
  | Package None :: _ => None
  | Package (Some (Simple i)) :: _ => if i_tok i =? tok then Some (i_val i, false) else None
  | Package (Some (Compound _ idents)) :: _ => cursor_in tok [] idents
  end.

(** 106-123: the part of a compound name that reads [name] *)
Fixpoint part_at (name : bytes) (first : ident) (before : list bytes) (idents : list ident) : option range :=
  match idents with
  | [] => None
  | i :: rest =>
      if beq (join_with dot (before ++ [i_val i])) name
      then match i_at first, i_at i with
           | Some s, Some e => Some (fst s, snd e)
           | _, _ => None
           end
      else part_at name first (before ++ [i_val i]) rest
  end.

(** 96-125 *)
Definition name_range (name : bytes) (prefix_match : bool) (n : pname) : option range :=
  match n with
  | Simple i => i_at i
  | Compound whole idents =>
      if negb prefix_match then whole
      else match idents with [] => None | i :: _ => part_at name i [] idents end
  end.

(** the loop over the declarations of a file, 89-134: an empty range ends it *)
Fixpoint decl_ranges (name : bytes) (prefix_match : bool) (ds : list decl) : list range :=
  match ds with
  | [] => []
  | OtherDecl :: r => decl_ranges name prefix_match r
  | Package None :: _ => []
  | Package (Some n) :: r =>
      match name_range name prefix_match n with
      | None => []
      | Some rg => rg :: decl_ranges name prefix_match r
      end
  end.

Section Index.
  (** RangeFilesByPackage and RangeFilesByPackagePrefix (third-party code):
      whether a file of the second package is visited when the first is asked
      for. *)
  Variable by_package by_prefix : bytes -> bytes -> bool.
  Variable uri_of : bytes -> option bytes.    (* PathToURI *)

  (** FindPackageNameRefs, 67-138 *)
  Definition package_refs (files : list file) (name : bytes) (prefix_match : bool) : list (bytes * range) :=
    flat_map (fun f =>
      if f_placeholder f then []
      else match uri_of (f_path f), f_decls f with
           | Some u, Some ds => map (pair u) (decl_ranges name prefix_match ds)
           | _, _ => []
           end)
      (filter (fun f => (if prefix_match then by_prefix else by_package) name (f_package f)) files).

  (** TryFindPackageReferences, 14-65, from the declarations and the token *)
  Definition package_refs_at (files : list file) (ds : list decl) (tok : nat) : list (bytes * range) :=
    match cursor_name tok ds with
    | None => []
    | Some (name, prefix_match) => package_refs files name prefix_match
    end.

  (** references.go:11-29 *)
  Definition ref_locations (refs : list (bytes * range)) : list (bytes * range) :=
    flat_map (fun r => match uri_of (fst r) with Some u => [(u, snd r)] | None => [] end) refs.

  (** What is at the position: nothing, or a symbol with the result of finding
      its definition and its references. *)
  Inductive found := Nothing | Symbol (definition : option (bytes * range)) (refs : list (bytes * range)).

  (** FindReferences, references.go:41-73; None is an error *)
  Definition find_references (files : list file) (document : bytes) (ds : list decl) (tok : nat)
      (at_position : found) (include_declaration : bool) : option (list (bytes * range)) :=
    match at_position with
    | Nothing =>
        let ls := package_refs_at files ds tok in
        Some (if include_declaration then ls else filter (fun l => negb (beq (fst l) document)) ls)
    | Symbol definition refs =>
        if include_declaration
        then option_map (fun l => l :: ref_locations refs) definition
        else Some (ref_locations refs)
    end.
End Index.

(** tryHoverPackageNode, 140-225: the name shown and the highlighted range; the
    flag is whether only a part of the name is meant *)
Fixpoint hover_in (tok : nat) (whole : option range) (first : ident) (before : list bytes) (idents : list ident)
  : option (bytes * bool * range) :=
  match idents with
  | [] => None
  | i :: rest =>
      if i_tok i =? tok then
        match rest with
        | [] => option_map (fun r => (join_with dot (before ++ [i_val i]), false, r)) whole
        | _ => match i_at first, i_at i with
               | Some s, Some e => Some (join_with dot (before ++ [i_val i]), true, (fst s, snd e))
               | _, _ => hover_in tok whole first (before ++ [i_val i]) rest
               end
        end
      else hover_in tok whole first (before ++ [i_val i]) rest
  end.
Fixpoint hover (tok : nat) (ds : list decl) : option (bytes * bool * range) :=
  match ds with
  | [] => None
  | OtherDecl :: r => hover tok r
  | Package None :: _ => None
  | Package (Some (Simple i)) :: _ =>
      if i_tok i =? tok then option_map (fun r => (i_val i, false, r)) (i_at i) else None
  | Package (Some (Compound whole idents)) :: _ =>
      match idents with [] => None | i :: _ => hover_in tok whole i [] idents end
  end.
