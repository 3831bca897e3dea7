(** Model of the orders in which the descriptor printer goes through Go maps, whose order of iteration is random:
    pkg/format/protoprint/print.go:2062-2072 (optionsAsElementAddrs), 2481-2509 (optionsByName, optionLess), 1736-1763
    (sortKeys) and message_literal.go:49-58 (the fields of a message literal). *)
From Coq Require Import Ascii String ZArith.
From Verif Require Import Base Strs.
From Verif.Completion Require Import Model.
Open Scope list_scope.

(** sort.Sort and sort.Slice: insertionSort for up to 12 elements (sort/zsortfunc.go), every element moves left while it
    is less than its left neighbour; [long] is what they do with more *)
Section Sort.
Variable A : Type.
Variable less : A -> A -> bool.
Variable long : list A -> list A.
(** [seen]: the sorted part, reversed *)
Fixpoint insert_left (x : A) (seen : list A) : list A :=
  match seen with
  | [] => [x]
  | y :: r => if less x y then y :: insert_left x r else x :: seen
  end.
Definition insertion_sort (l : list A) : list A := rev (fold_left (fun seen x => insert_left x seen) l []).
Definition go_sort (l : list A) : list A := if List.length l <=? 12 then insertion_sort l else long l.
End Sort.
Arguments insert_left {A}. Arguments insertion_sort {A}. Arguments go_sort {A}.

(** an entry of the map of options, 2062-2066: its tag and the name of the first of its values, which is not empty *)
Record entry := mkEntry { tag : Z; name : bytes }.
Definition bracketed (n : bytes) : bool := match n with c :: _ => Ascii.eqb c "("%char | [] => false end.
(** 2500-2509 *)
Definition option_less (a b : entry) : bool :=
  if (negb (bracketed (name a)) && bracketed (name b))%bool then true
  else if (bracketed (name a) && negb (bracketed (name b)))%bool then false
  else blt (name a) (name b).
(** 2062-2072; [l]: the entries as the iteration over the map gives them *)
Definition options_in_order (long : list entry -> list entry) (l : list entry) : list entry := go_sort option_less long l.

(** keys of maps: of all integer types, texts and booleans *)
Inductive key := KInt (z : Z) | KText (s : bytes) | KBool (b : bool).
(** 1744-1761; all keys of a map have the same type *)
Definition key_less (a b : key) : bool :=
  match a, b with
  | KInt x, KInt y => (x <? y)%Z
  | KText s, KText t => blt s t
  | KBool x, KBool y => (negb x && y)%bool
  | _, _ => false
  end.
Definition keys_in_order (long : list key -> list key) (l : list key) : list key := go_sort key_less long l.

(** message_literal.go:49-58; a field is its number and what is printed for it *)
Definition field_less (a b : Z * bytes) : bool := (fst a <? fst b)%Z.
Definition fields_in_order (long : list (Z * bytes) -> list (Z * bytes)) (l : list (Z * bytes)) : list (Z * bytes) := go_sort field_less long l.
