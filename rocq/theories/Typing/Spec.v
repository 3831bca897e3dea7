(** What completion should offer and write: changes of a line, snippets, and the keywords of the language. *)
From Coq Require Import Ascii String.
From Verif Require Import Base Strs.
From Verif.Offers Require Import Model.
From Verif.Typing Require Import Model.
Import ListNotations.
Open Scope list_scope.

(** the line after an edit *)
Definition after_edit (line : bytes) (e : edit) : bytes := firstn (from e) line ++ text e ++ skipn (upto e) line.
Definition starts (s p : bytes) : Prop := exists r, s = p ++ r.
(** no blanks at the ends *)
Definition blank (c : ascii) : Prop := In (nat_of_ascii c) [9; 10; 11; 12; 13; 32].
Definition tight (s : bytes) : Prop := match s with [] => True | c :: _ => ~ blank c end /\ match rev s with [] => True | c :: _ => ~ blank c end.
Definition no_quote (s : bytes) : Prop := ~ In dq s.

(** what a snippet inserts: without its placeholder *)
Fixpoint inserted (s : bytes) : bytes :=
  match s with
  | [] => []
  | c :: r => match r with
              | "{"%char :: "0"%char :: "}"%char :: r' => if Ascii.eqb c "$" then r' else c :: inserted r
              | _ => c :: inserted r
              end
  end.
Definition accepted (line : bytes) (e : edit) : bytes := after_edit line (mkEdit (from e) (upto e) (inserted (text e))).

(** ** Keywords of the language *)
(** the words that may begin an element of a message, by the header of the file *)
Definition begins_element (h : header) (w : bytes) : Prop :=
  In w [b_ "option"; b_ "repeated"; b_ "enum"; b_ "message"; b_ "reserved"; b_ "oneof"; b_ "map"; b_ "extend"] \/
  match h with
  | Edition _ => w = b_ "extensions"
  | Syntax v => w = b_ "optional" \/ (v = b_ "proto2" /\ In w [b_ "required"; b_ "extensions"])
  | NoHeader => In w [b_ "optional"; b_ "required"; b_ "extensions"]
  end.
(** ... and a declaration of a file *)
Definition begins_declaration (h : header) (package : bool) (w : bytes) : Prop :=
  In w [b_ "import"; b_ "option"; b_ "message"; b_ "enum"; b_ "service"; b_ "extend"] \/
  (package = false /\ w = b_ "package") \/ (h = NoHeader /\ In w [b_ "syntax"; b_ "edition"]).
(** the words of a field's value as far as it is inserted *)
Definition value_words (f : lfield) : list bytes :=
  if lrepeated f then [b_ "["; b_ "]"] else match lkind f with FMessage _ => [b_ "{"; b_ "}"] | FScalar => [] end.
