(** Arrays as the grammar has them. *)
From Verif Require Import Base.
From Verif.Commas Require Import Model.
Open Scope list_scope.

(** [array last ts vs]: the values vs with commas between them, and one after the last if [last] *)
Inductive array (last : bool) : list token -> list nat -> Prop :=
| arr_nil : array last [] []
| arr_one v : array last (if last then [V v; Comma] else [V v]) [v]
| arr_more v w ts vs : array last ts (w :: vs) -> array last (V v :: Comma :: ts) (v :: w :: vs).
(** the values of a piece; its own array may end in a comma or not *)
Inductive gives : piece -> list nat -> Prop :=
| gi_array last ts vs : array last ts vs -> gives (PArray ts) vs
| gi_one v : gives (POne v) [v].
