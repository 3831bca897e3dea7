(** Package names as lists of components, and what refers to them. *)
From Coq Require Import Ascii String.
From Verif Require Import Base Strs.
From Verif.Packages Require Import Model.
Open Scope list_scope.

(** A source file: one package declaration among others, its components in
    order with their tokens and places. *)
Record comp := mkComp { c_tok : nat; c_name : bytes; c_from : nat; c_to : nat }.
Record source := mkSource { s_path : bytes; s_before : nat; s_comps : list comp; s_after : nat }.

Definition names (s : source) : list bytes := map c_name (s_comps s).
(** from the first component to the n-th *)
Definition upto (s : source) (n : nat) : range :=
  match s_comps s with
  | [] => (0, 0)
  | c :: _ => (c_from c, c_to (nth (n - 1) (s_comps s) c))
  end.

(** how the parser gives it *)
Definition ident_of (c : comp) : ident := mkIdent (c_tok c) (c_name c) (Some (c_from c, c_to c)).
Definition name_of (s : source) : option pname :=
  match s_comps s with
  | [] => None
  | [c] => Some (Simple (ident_of c))
  | cs => Some (Compound (Some (upto s (List.length cs))) (map ident_of cs))
  end.
Definition decls_of (s : source) : list decl :=
  repeat OtherDecl (s_before s) ++ Package (name_of s) :: repeat OtherDecl (s_after s).
Definition file_of (s : source) : file :=
  mkFile (s_path s) false (join_with dot (names s)) (Some (decls_of s)).

(** components are identifiers, and a name has at least one *)
Definition proper (s : source) : Prop :=
  s_comps s <> [] /\ (forall c, In c (s_comps s) -> c_name c <> [] /\ ~ In dot (c_name c)) /\
  NoDup (map c_tok (s_comps s)).

(** ** The indexes *)
Definition exactly (name package : bytes) : bool := beq package name.
(** packages whose components start with those of the name *)
Definition below (name package : bytes) : bool := (beq package name || has_prefix package (name ++ [dot]))%bool.
(** packages whose text starts with that of the name *)
Definition starts_with (name package : bytes) : bool := has_prefix package name.
