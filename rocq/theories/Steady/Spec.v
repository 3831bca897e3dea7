(** Orders, and what a sort does. *)
From Coq Require Import Ascii String ZArith Permutation Sorted.
From Verif Require Import Base Strs.
From Verif.Steady Require Import Model.
Open Scope list_scope.

(** dictionary order by character codes *)
Inductive dict : bytes -> bytes -> Prop :=
| d_shorter p x r : dict p (p ++ x :: r)
| d_first p x r y s : (N_of_ascii x < N_of_ascii y)%N -> dict (p ++ x :: r) (p ++ y :: s).
(** options of the language before extensions, by name *)
Definition custom (e : entry) : Prop := exists r, name e = "("%char :: r.
Inductive option_before (a b : entry) : Prop :=
| ob_custom : ~ custom a -> custom b -> option_before a b
| ob_name : (custom a <-> custom b) -> dict (name a) (name b) -> option_before a b.
Inductive key_before : key -> key -> Prop :=
| kb_int x y : (x < y)%Z -> key_before (KInt x) (KInt y)
| kb_text s t : dict s t -> key_before (KText s) (KText t)
| kb_bool : key_before (KBool false) (KBool true).
Definition same_type (a b : key) : Prop :=
  match a, b with KInt _, KInt _ | KText _, KText _ | KBool _, KBool _ => True | _, _ => False end.

(** the contract of Go's sort functions: the same elements, none of them less than one before it *)
Definition sorts {A} (less : A -> A -> bool) (l r : list A) : Prop :=
  Permutation l r /\ StronglySorted (fun a b => less b a = false) r.
