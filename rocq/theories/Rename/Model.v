(** Model of renaming: pkg/lsp/rename.go, and of the names it builds
    (protoreflect.FullName). *)
From Coq Require Import Ascii String.
From Verif Require Import Base Strs.
Open Scope list_scope.

Definition dot : ascii := "."%char.

(** ** Names (google.golang.org/protobuf/reflect/protoreflect/proto.go) *)

Definition is_letter (c : ascii) : bool :=
  let n := nat_of_ascii c in
  (Ascii.eqb c "_"%char || ((97 <=? n) && (n <=? 122)) || ((65 <=? n) && (n <=? 90)))%bool.
Definition is_letter_digit (c : ascii) : bool :=
  let n := nat_of_ascii c in (is_letter c || ((48 <=? n) && (n <=? 57)))%bool.

(** consumeIdent applied to a whole component *)
Definition ident (s : bytes) : bool :=
  match s with [] => false | c :: r => is_letter c && forallb is_letter_digit r end.
(** FullName.IsValid: identifiers separated by dots *)
Definition valid_full (n : bytes) : bool := forallb ident (split_on dot n).
(** FullName.Parent: what precedes the last dot *)
Definition parent (n : bytes) : bytes := join_with dot (removelast (split_on dot n)).
(** FullName.Name: what follows it *)
Definition short (n : bytes) : bytes := last (split_on dot n) [].
(** FullName.Append *)
Definition append (p n : bytes) : bytes := match p with [] => n | _ => p ++ dot :: n end.

(** ** References *)

(** Offsets of the first character and after the last one. The code has lines
    and columns. *)
Definition range := (nat * nat)%type.

(** The node of a reference after unwrapping (rename.go:121-171). Parts of a
    compound identifier without a valid position are None. A field reference
    has a simple name, a compound name or something else. *)
Inductive node :=
| NIdent (r : range)
| NCompound (parts : list (option range))
| NFieldRef (r : range)
| NFieldRefCompound (parts : list (option range))
| NFieldRefOther
| NDecl (name : range)               (* 147-162: map field ... rpc: the range of the name *)
| NRpcType (message_type : range)    (* the whole type, qualification included *)
| NOther.

Inductive where_ := At (r : range) | Skip | Refuse.

Definition last_part (parts : list (option range)) : where_ :=
  match last parts None with Some r => At r | None => Skip end.

(** the switch of 121-171 *)
Definition edit_range (n : node) : where_ :=
  match n with
  | NIdent r => At r
  | NCompound ps => last_part ps
  | NFieldRef r => At r
  | NFieldRefCompound ps => last_part ps
  | NFieldRefOther => Skip
  | NDecl r => At r
  | NRpcType r => At r
  | NOther => Refuse
  end.

Record ref := mkRef { r_file : bytes; r_node : node }.

(** What is at the position: nothing, a file, a declaration that can be
    renamed, or something else (canRename, 32-51). *)
Inductive dkind := DNone | DFile | DDeclared | DOther.
Record target := mkTarget {
  t_kind : dkind;
  t_full : bytes;                    (* desc.FullName() *)
  t_definition : option bytes;       (* the URI FindDefinitionForTypeDescriptor finds *)
  t_source : bool }.                 (* there is a parent file with a result and a definition in it, 96-112 *)

Section Env.
  Variable local : bytes -> bool.          (* IsRealWorkspaceLocalFile *)
  Variable well_formed : bytes -> bool.    (* LatestDocumentContentsWellFormed *)
  Variable taken : bytes -> bool.          (* AsResolver().FindDescriptorByName finds it *)
  Variable uri_of : bytes -> option bytes. (* PathToURI *)

  (** canRename, 32-68 *)
  Definition can_rename (t : target) : bool :=
    match t_kind t with
    | DDeclared =>
        match t_definition t with
        | None => false
        | Some u => local u && well_formed u
        end
    | _ => false
    end.

  (** PrepareRename, 11-30: the placeholder *)
  Definition prepare (t : target) : option bytes :=
    match t_kind t with
    | DNone => None
    | _ => if can_rename t then Some (short (t_full t)) else None
    end.

  (** the loop of 118-186: edits in order, each with its document *)
  Fixpoint edits (rs : list ref) : option (list (bytes * range)) :=
    match rs with
    | [] => Some []
    | r :: rest =>
        match edit_range (r_node r) with
        | Skip => edits rest
        | Refuse => None
        | At rg =>
            match uri_of (r_file r) with
            | None => None
            | Some u => if local u then option_map (cons (u, rg)) (edits rest) else None
            end
        end
    end.

  (** Rename, 70-192: None is an error *)
  Definition rename (t : target) (new : bytes) (refs : list ref) (definition : ref) : option (list (bytes * range)) :=
    if negb (can_rename t) then None                              (* 84 *)
    else
      let fqn := append (parent (t_full t)) new in                (* 92 *)
      if negb (valid_full fqn) then None                          (* 94 *)
      else if taken fqn then None                                 (* 99 *)
      else if negb (t_source t) then None
      else edits (refs ++ [definition]).
End Env.

(** the edits of one document, editsByDocument[uri] *)
Definition edits_of (u : bytes) (es : list (bytes * range)) : list range :=
  map snd (filter (fun e => beq (fst e) u) es).
