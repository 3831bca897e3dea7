(** Model of hovering over a name: pkg/lsp/hover.go ComputeHover (12-60) once the declaration the name stands
    for is known (C119, C120), with format.go PrintNode (83-115) and search.go findPathIntersectingToken
    (648-787) at the name in the declaration.

    Declarations are those of the formatter's model (FormatTree).  That the declaration found is the one the
    cursor's name stands for, that its file is loaded and its text mapped to positions is not modelled: the
    model starts at the name token findDefinition (853-904) returns.  Names of packages: C106 (Packages). *)
From Coq Require Import Ascii String.
From Verif Require Import Base Strs.
From Verif.FormatTree Require Import Model.
Open Scope list_scope.

(** findDefinition: the declarations that have names of their own *)
Definition named (d : decl) : bool :=
  match d with
  | DField _ _ _ _ _ _ _ | DMap _ _ _ _ _ _ _ _ _ _ _ _ | DEnumValue _ _ _ _ _ | DMessage _ _ _ _ _ _ | DEnum _ _ _ _ _ _
  | DOneof _ _ _ _ _ _ | DGroup _ _ _ _ _ _ _ _ _ _ | DService _ _ _ _ _ _ | DRpc _ _ _ _ _ _ _ _ => true
  | DOption _ | DReserved _ _ _ | DExtensions _ _ _ _ | DExtend _ _ _ _ _ _ | DEmpty _ => false
  end.
(** search.go:677-771: the nodes whose path is recorded; a method only if it has a semicolon
    (703-715; the parser may insert one after a body, which counts).  The
    first position of a name lies in its declaration and in those around it, before their last tokens, and in
    none of the other nodes that are recorded (options, literals, references, types of methods). *)
Definition recorded (d : decl) : bool :=
  match d with
  | DField _ _ _ _ _ _ _ | DEnumValue _ _ _ _ _ | DMessage _ _ _ _ _ _ | DEnum _ _ _ _ _ _ | DService _ _ _ _ _ _ | DExtend _ _ _ _ _ _ => true
  | DRpc _ _ _ _ _ _ _ sm => match sm with Some _ => true | None => false end
  | _ => false
  end.
Definition body_of (d : decl) : list decl :=
  match d with
  | DMessage _ _ _ b _ _ | DEnum _ _ _ b _ _ | DOneof _ _ _ b _ _ | DService _ _ _ b _ _ | DExtend _ _ _ b _ _ => b
  | DGroup _ _ _ _ _ _ _ b _ _ => b
  | DRpc _ _ _ _ _ _ b _ => b
  | _ => []
  end.
(** the node the path ends at (779-785, hover.go:46): the innermost recorded declaration around the name of the
    last one.  [chain]: the declarations around the name, from the outermost to the one that is named. *)
Definition innermost (chain : list decl) : option decl := find recorded (rev chain).

(** format.go:103-114.  A text that is a single line break would be cut out of range; no declaration is
    written so (C130_cut). *)
Definition nl : ascii := "010"%char.
Definition trim_front (s : bytes) : bytes := match s with c :: r => if Ascii.eqb c nl then r else s | [] => [] end.
Definition trim_back (s : bytes) : bytes := match rev s with c :: r => if Ascii.eqb c nl then rev r else s | [] => [] end.
(** format.go:103-114 with the bounds as they are computed; [None]: the bounds are out of order, a panic *)
Definition cut (s : bytes) : option bytes :=
  match s with
  | [] => Some []
  | c :: _ =>
      let lower := if Ascii.eqb c nl then 1 else 0 in
      let upper := if Ascii.eqb (last s c) nl then List.length s - 1 else List.length s in
      if upper <? lower then None else Some (skipn lower (firstn upper s))
  end.
Section Print.
Variable dec : list nat -> nat -> bool.     (* see FormatTree *)
(** format.go:83-115 for a declaration; an error of the formatter is not looked at *)
Definition print_node (d : decl) : bytes := trim_front (trim_back (out (write_decl dec d start))).
(** hover.go:54-57 fmt.Sprintf("```protobuf\n%s\n```\n", text) *)
Definition fenced (text : bytes) : bytes := b_ "```protobuf" ++ nl :: text ++ nl :: b_ "```" ++ [nl].
Definition hover (chain : list decl) : option bytes := option_map (fun d => fenced (print_node d)) (innermost chain).
End Print.
