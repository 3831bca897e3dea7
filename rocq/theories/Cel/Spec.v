(** What highlighting a CEL expression should do: a file is a list of lines. *)
From Coq Require Import Ascii String.
From Verif Require Import Base Strs.
From Verif.Cel Require Import Model.
Import ListNotations.
Open Scope list_scope.

Definition line_of (file : list bytes) (n : nat) : bytes := nth n file [].
(** [s] stands in the line from column [c] on *)
Definition stands_at (line : bytes) (c : nat) (s : bytes) : Prop := exists a b, line = a ++ s ++ b /\ List.length a = c.
(** the text an item of the file is about *)
Definition covered (file : list bytes) (i : item) : bytes := firstn (i_len i) (skipn (i_start i) (line_of file (i_line i))).
(** a literal stands in the file where its position says *)
Definition lit_stands (file : list bytes) (l : lit) : Prop :=
  1 <= l_line l /\ 1 <= l_col l /\ stands_at (line_of file (l_line l - 1)) (l_col l - 1) (l_raw l).
(** a literal without escape sequences *)
Definition plain (l : lit) : Prop :=
  (exists q, l_raw l = q :: l_value l ++ [q]) /\ ~ In backslash (l_value l) /\ ~ In nl (l_value l).
(** no blanks at the beginning *)
Definition starts_dark (s : bytes) : Prop := match s with c :: _ => space c = false | [] => True end.

(** how an element is written: numbers and strings in the plainest way *)
Definition written (k : kind) (s : bytes) : Prop :=
  match k with
  | Call op => s = op /\ op <> []
  | Ident n => s = n
  | Number p => s = p
  | Text t => exists q, s = q :: t ++ [q]
  | Bool true => s = b_ "true"
  | Bool false => s = b_ "false"
  | Else => False
  end.
Definition type_of (k : kind) : ttype :=
  match k with
  | Call _ => TOperator
  | Ident n => if beq n (b_ "this") then TKeyword else TVariable
  | Number _ => TNumber | Text _ => TString | Bool _ => TKeyword | Else => TKeyword
  end.
Definition silent (k : kind) : bool := match k with Call [] | Else => true | _ => false end.
(** the element stands in the expression where the parser says *)
Definition in_place (expr : bytes) (e : element) : Prop :=
  exists s n w, written (e_kind e) s /\ e_line e = S n /\ nth_error (split_on nl expr) n = Some w /\ stands_at w (e_col e) s.
Definition in_lines (expr : bytes) (e : element) : Prop := 1 <= e_line e <= List.length (split_on nl expr).

Definition named (fs : list field) : Prop := Forall (fun f => f_name f <> None) fs.
Definition is_expression (f : field) : Prop := f_name f = Some (b_ "expression").
(** the expression a value stands for: a string, or one line for each of several strings; blanks at the end of a
    line do not matter *)
Definition dark_end (s : bytes) : Prop := s = [] \/ exists r c, s = r ++ [c] /\ space c = false.
Inductive reads : value -> bytes -> Prop :=
| rd_one l : reads (Str l) (l_value l)
| rd_more ls ts : Forall2 (fun l t => exists b, l_value l = t ++ b /\ forallb space b = true /\ dark_end t /\ starts_dark (l_value l)) ls ts ->
    reads (Compound ls) (join_with nl ts).
Definition literals (v : value) : list lit := match v with Str l => [l] | Compound ls => ls | Other => [] end.
