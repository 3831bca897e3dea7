(** Model of the comments that the generator for gRPC services carries over into Go code:
    sdk/codegen/generators/golang/grpc/upstream_gen.go:190-200 (genServiceComments), 223-228 (methods) and 618-627
    (genLeadingComments).

    protogen.Comments.String by its documentation: each line of the comment with // before it, and a line end after the
    last; GeneratedFile.P: what is given to it and a line end. *)
From Coq Require Import Ascii String.
From Verif Require Import Base Strs.
Open Scope list_scope.

Definition nl : ascii := "010"%char.
(** strings.TrimSuffix(c, "\n") *)
Definition without_end (c : bytes) : bytes := match rev c with x :: r => if Ascii.eqb x nl then rev r else c | [] => [] end.
(** Comments.String *)
Definition comments_string (c : bytes) : bytes :=
  match c with [] => [] | _ => flat_map (fun l => b_ "//" ++ l ++ [nl]) (split_on nl (without_end c)) end.
(** strings.TrimSpace, for the white space of ASCII; other spaces of Unicode are left out *)
Definition is_space (c : ascii) : bool := existsb (Ascii.eqb c) [" "%char; "009"%char; "010"%char; "011"%char; "012"%char; "013"%char].
Fixpoint trim_left (s : bytes) : bytes := match s with [] => [] | c :: r => if is_space c then trim_left r else s end.
Fixpoint trim_right (s : bytes) : bytes :=
  match s with [] => [] | c :: r => match trim_right r with [] => if is_space c then [] else [c] | t => c :: t end end.
Definition trim_space (s : bytes) : bytes := trim_right (trim_left s).
Definition put (s : bytes) : bytes := s ++ [nl].

(** 192-200: before the interfaces of the client and of the server *)
Definition service_comments (leading : bytes) : bytes :=
  match leading with [] => [] | _ => put (b_ "//") ++ put (trim_space (comments_string leading)) end.
(** 223-228, 280-285: a method of an interface *)
Definition method_text (deprecated : bool) (leading signature : bytes) : bytes :=
  (if deprecated then put (b_ "// Deprecated: Do not use.") else []) ++ put (comments_string leading ++ signature).
(** 618-627: before the package clause *)
Definition leading_comments (detached : list bytes) (leading : bytes) : bytes :=
  flat_map (fun s => put (comments_string s) ++ put []) detached ++
  match leading with [] => [] | _ => put (comments_string leading) ++ put [] end.
