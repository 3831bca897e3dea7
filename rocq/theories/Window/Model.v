(** Requests for a part of a document: pkg/lsp/semantic.go ComputeSemanticTokensRange, semanticTokensRange
    (135-196) and pkg/lsp/inlayhints.go computeMessageLiteralHints (32-89).

    Third-party contracts: TokenAtOffset gives the token that contains an offset and TokenError, which is -1, if
    none does (refactor.go:451-467 relies on it); ast.WithRange(start, end) makes ast.Inspect skip the nodes with
    Start() > end or End() < start, with all that is in them. *)
From Verif Require Import Base Strs.
Open Scope list_scope.

(** a token is its first offset and the offset after it; tokens are numbered in the order of the file *)
Definition span : Type := nat * nat.
Definition holds (o : nat) (s : span) : bool := (fst s <=? o) && (o <? snd s).
(** TokenAtOffset *)
Fixpoint index_of (ts : list span) (o i : nat) : Z :=
  match ts with
  | [] => (-1)%Z
  | s :: r => if holds o s then Z.of_nat i else index_of r o (S i)
  end.
Definition token_at (ts : list span) (o : nat) : Z := index_of ts o 0.
(** the test that leaves out what begins after the range or ends before it (inlayhints.go:52; WithRange) *)
Definition outside (s e : Z) (a b : nat) : bool := ((e <? Z.of_nat a) || (Z.of_nat b <? s))%Z.

(** ** Semantic tokens *)

(** an item that visiting a node reports: the tokens it covers, first and last, and what it is *)
Record item := mkItem { i_from : nat; i_to : nat; i_what : nat }.
(** a node of the tree: a terminal is a token; [own] is what visiting the node reports (semantic.go:454-686, see
    Highlight) *)
Inductive tree := Leaf (t : nat) (own : list item) | Node (own : list item) (kids : list tree).
Fixpoint tokens (n : tree) : list nat :=
  match n with Leaf t _ => [t] | Node _ ks => flat_map tokens ks end.
Definition first (n : tree) : nat := hd 0 (tokens n).
Definition final (n : tree) : nat := last (tokens n) 0.
(** 199 e.inspect without options and with ast.WithRange; computeSemanticTokens then sorts the items by position.
    Simplified: visitors that return false are nodes without children. *)
Fixpoint walk (n : tree) : list item :=
  match n with Leaf _ own => own | Node own ks => own ++ flat_map walk ks end.
Fixpoint walk_range (s e : Z) (n : tree) : list item :=
  if outside s e (first n) (final n) then []
  else match n with Leaf _ own => own | Node own ks => own ++ flat_map (walk_range s e) ks end.
(** semantic.go:169-196; [a] and [b]: the offsets of the range *)
Definition tokens_range (ts : list span) (n : tree) (a b : nat) : list item := walk_range (token_at ts a) (token_at ts b) n.
Definition tokens_full (n : tree) : list item := walk n.

(** ** Hints for the types of extensions in message literals *)

(** a reference to a field with the descriptor that was found for it: the tokens of the node, whether it is a
    reference to an Any type, where its closing bracket is, and the field *)
Record ref := mkRef { r_from : nat; r_to : nat; r_any : bool; r_close : option (nat * nat); r_message : option bytes; r_map : bool; r_list : bool }.
Record hint := mkHint { h_line : nat; h_char : nat; h_label : bytes }.
(** 57-84; lines and columns of the AST count from 1 *)
Definition hint_of (r : ref) : list hint :=
  if r_any r then []
  else match r_close r, r_message r with
  | Some (line, col), Some m => if (negb (r_map r) && negb (r_list r))%bool then [mkHint (line - 1) (col - 1) m] else []
  | _, _ => []
  end.
(** 46-88; [refs] in the order of RangeFieldReferenceNodesWithDescriptors *)
Definition hints_range (ts : list span) (refs : list ref) (a b : nat) : list hint :=
  flat_map (fun r => if outside (token_at ts a) (token_at ts b) (r_from r) (r_to r) then [] else hint_of r) refs.
