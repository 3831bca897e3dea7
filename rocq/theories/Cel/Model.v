(** Model of the highlighting of CEL expressions inside options: pkg/lsp/semantic.go inspectCelExpr (883-968),
    mktokens_cel (316-329), and of the case for message literals in inspect (600-623).

    The CEL parser (celEnv.Parse and the visit of its tree in order, 915-961) is a parameter: it fails, or gives
    the elements of the expression with their places, lines from 1 and columns from 0.  Text is ASCII, so that
    bytes, characters and columns are the same.  strings.TrimSpace is modelled for ASCII. *)
From Coq Require Import Ascii String.
From Verif Require Import Base Strs.
Import ListNotations.
Open Scope list_scope.

Definition nl : ascii := ascii_of_nat 10.
Definition backslash : ascii := ascii_of_nat 92.

(** a string literal: its position from 1 (NodeInfo), its spelling, and the string it stands for (AsString) *)
Record lit := Lit { l_line : nat; l_col : nat; l_raw : bytes; l_value : bytes }.
Inductive value := Str (l : lit) | Compound (ls : list lit) | Other.
(** a field of a message literal; the name is missing in incomplete ones *)
Record field := Field { f_name : option bytes; f_val : value }.

(** elements of a CEL expression: a call, with the name its operator is written by (operators.FindReverse; empty if
    there is none), an identifier, a number with the text fmt.Sprint gives for it, a string, a boolean *)
Inductive kind := Call (op : bytes) | Ident (name : bytes) | Number (printed : bytes) | Text (s : bytes) | Bool (b : bool) | Else.
Record element := El { e_line : nat; e_col : nat; e_kind : kind }.

Inductive ttype := TOperator | TVariable | TKeyword | TNumber | TString.
Record item := Item { i_line : nat; i_start : nat; i_len : nat; i_type : ttype }.

Definition space (c : ascii) : bool := let n := nat_of_ascii c in (n =? 32) || ((9 <=? n) && (n <=? 13)).
Fixpoint trim_left (s : bytes) : bytes := match s with c :: r => if space c then trim_left r else s | [] => [] end.
Definition trim (s : bytes) : bytes := rev (trim_left (rev (trim_left s))).
(** 912 *)
Fixpoint escape (s : bytes) : bytes := match s with [] => [] | c :: r => if Ascii.eqb c backslash then backslash :: backslash :: escape r else c :: escape r end.

(** 888-910 *)
Definition nodes (v : value) : list lit := match v with Str l => [l] | Compound ls => ls | Other => [] end.
Definition expression (v : value) : bytes :=
  match v with Str l => l_value l | Compound ls => join_with nl (map (fun l => trim (l_value l)) ls) | Other => [] end.

(** the type and length of an element's item: 931-960 *)
Definition style (k : kind) : option (ttype * nat) :=
  match k with
  | Call [] => None
  | Call op => Some (TOperator, List.length op)
  | Ident n => Some (if beq n (b_ "this") then TKeyword else TVariable, List.length n)
  | Number p => Some (TNumber, List.length p)
  | Text s => Some (TString, List.length s + 2)
  | Bool b => Some (TKeyword, if b then 4 else 5)
  | Else => None
  end.
(** indexing of the string literals; [None] is a panic *)
Definition node_at (ls : list lit) (line : nat) : option lit := match line with 0 => None | S n => nth_error ls n end.
(** 316-329 *)
Definition cel_item (l : lit) (start : nat) (t : ttype) (n : nat) : item := Item (l_line l - 1) (l_col l + start) n t.
Fixpoint items (ls : list lit) (es : list element) : option (list item) :=
  match es with
  | [] => Some []
  | e :: r => match style (e_kind e) with
              | None => items ls r
              | Some (t, n) => match node_at ls (e_line e) with
                               | None => None
                               | Some l => match items ls r with Some x => Some (cel_item l (e_col e) t n :: x) | None => None end
                               end
              end
  end.

Section Inspect.
Variable parse : bytes -> option (list element).
(** 883-968; [None] is a panic.  The result: the items, and the literals that are not highlighted as strings *)
Fixpoint inspect_cel (fs : list field) : option (list item * list lit) :=
  match fs with
  | [] => Some ([], [])
  | Field None _ :: _ => None
  | Field (Some n) v :: r =>
      if beq n (b_ "expression") then
        match parse (escape (expression v)) with
        | None => match nodes v with [] => None | _ :: _ => inspect_cel r end
        | Some es => match items (nodes v) es with Some x => Some (x, nodes v) | None => None end
        end
      else inspect_cel r
  end.
(** 600-617 *)
Fixpoint has_both (e i : bool) (fs : list field) : bool :=
  match fs with
  | [] => e && i
  | Field None _ :: r => has_both e i r
  | Field (Some n) _ :: r =>
      let e' := if beq n (b_ "expression") then true else e in
      let i' := if beq n (b_ "expression") then i else if beq n (b_ "id") then true else i in
      if e' && i' then true else has_both e' i' r
  end.
Definition inspect_literal (fs : list field) : option (list item * list lit) :=
  if has_both false false fs then inspect_cel fs else Some ([], []).
End Inspect.
