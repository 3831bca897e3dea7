(** What is shown of a Markdown text with one fenced code block (CommonMark 4.5), and where names are. *)
From Coq Require Import Ascii String.
From Verif Require Import Base Strs.
From Verif.FormatTree Require Import Model Spec.
From Verif.Hover Require Import Model.
Open Scope list_scope.

Definition tick : ascii := "`"%char.
Definition blank (c : ascii) : bool := Ascii.eqb c " "%char || Ascii.eqb c "009"%char.
Fixpoint run (c : ascii) (s : bytes) : nat * bytes :=
  match s with x :: r => if Ascii.eqb x c then let '(n, t) := run c r in (S n, t) else (0, s) | [] => (0, []) end.
(** a line that ends a block opened by three backquotes: at most three spaces, at least three backquotes, blanks *)
Definition closes_fence (l : bytes) : bool :=
  let '(i, r) := run " "%char l in
  let '(k, z) := run tick r in
  (i <=? 3) && (3 <=? k) && forallb blank z.
(** the lines up to the end of the block, and the lines after it *)
Fixpoint to_fence (ls : list bytes) : list bytes * list bytes :=
  match ls with
  | [] => ([], [])
  | l :: r => if closes_fence l then ([], r) else let '(a, b) := to_fence r in (l :: a, b)
  end.
(** the code shown, and what is shown after it *)
Definition code_block (md : bytes) : option (bytes * list bytes) :=
  match split_on nl md with
  | l :: r => if beq l (b_ "```protobuf") then let '(a, b) := to_fence r in Some (join_with nl a, b) else None
  | [] => None
  end.

(** each declaration is in the body of the one before *)
Fixpoint nested (chain : list decl) : Prop :=
  match chain with
  | d :: (e :: _) as r => In e (body_of d) /\ nested r
  | _ => True
  end.
Definition all_closed (text : bytes) : Prop := forall l, In l (split_on nl text) -> closes_fence l = false.
Definition chain_of (f : file) (chain : list decl) : Prop :=
  match chain with d :: _ => In (FDecl d) (f_decls f) /\ nested chain | [] => False end.
(** after the text, a block comment or a literal is open *)
Definition open_after (before : bytes) : Prop :=
  match fst (lrun S0 before) with SBlock _ _ | SStr _ _ _ => True | _ => False end.
(** [l] is a line of the text, after [before] *)
Definition line_after (before l text : bytes) : Prop :=
  exists rest, text ++ [nl] = before ++ l ++ nl :: rest /\ (before = [] \/ exists a, before = a ++ [nl]).
(** the declarations that can be hovered over, other than maps, oneofs and groups; a method ends with a semicolon,
    be it one the parser inserted *)
Inductive ordinary : decl -> Prop :=
| ord_field l ty n e tg os sm : ordinary (DField l ty n e tg os sm)
| ord_value n e v os sm : ordinary (DEnumValue n e v os sm)
| ord_message kw n o b c sm : ordinary (DMessage kw n o b c sm)
| ord_enum kw n o b c sm : ordinary (DEnum kw n o b c sm)
| ord_service kw n o b c sm : ordinary (DService kw n o b c sm)
| ord_rpc kw n i rt u br b s : ordinary (DRpc kw n i rt u br b (Some s)).
