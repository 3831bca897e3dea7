(** Model of how simplifying repeated options puts an array together, with its commas (pkg/lsp/refactor.go:999-1013,
    1044-1115), and of how arrays are then printed (pkg/format/formatter.go:1421-1474).  The Simplify area models the same
    function without commas.

    Simplified: values are numbers, comments are left out. *)
From Verif Require Import Base.
Open Scope list_scope.

(** elements of an ArrayLiteralNode: values and commas *)
Inductive token := V (v : nat) | Comma.
(** a value given to the field: an array, by its elements, or a single value *)
Inductive piece := PArray (ts : list token) | POne (v : nat).

(** GetComma() of the last element *)
Fixpoint ends_comma (ts : list token) : bool := match ts with [] => false | [Comma] => true | [V _] => false | _ :: r => ends_comma r end.
(** 1047-1073, 1083-1103: what is appended for one value; the delimiter of a single value becomes its comma *)
Definition append_piece (acc : list token) (p : piece) : list token :=
  match p with
  | PArray [] => acc
  | PArray ts => acc ++ ts ++ (if ends_comma ts then [] else [Comma])
  | POne v => acc ++ [V v; Comma]
  end.
(** 1110-1115 *)
Definition trim (ts : list token) : list token := if ends_comma ts then removelast ts else ts.
(** the array of the container, empty if it is new (1009), and the other values in the order they are met *)
Definition join (array : list token) (ps : list piece) : list token := trim (fold_left append_piece ps array).

(** ArrayLiteralNode.Split, by its use: the values and the commas *)
Definition split_values (ts : list token) : list nat := flat_map (fun t => match t with V v => [v] | Comma => [] end) ts.
Definition split_commas (ts : list token) : list token := flat_map (fun t => match t with V _ => [] | Comma => [Comma] end) ts.
(** formatter.go:1427-1461: every value but the last is followed by the comma of the same index; None: there is none, and
    the index is out of range *)
Fixpoint write (vs : list nat) (cs : list token) : option (list token) :=
  match vs with
  | [] => Some []
  | [v] => Some [V v]
  | v :: r => match cs with [] => None | c :: cs' => match write r cs' with Some ts => Some (V v :: c :: ts) | None => None end end
  end.
Definition print_array (ts : list token) : option (list token) := write (split_values ts) (split_commas ts).
