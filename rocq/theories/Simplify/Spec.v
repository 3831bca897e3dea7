From Verif Require Import Base.
From Verif.Simplify Require Import Model.

Definition elem_vals (e : elem) : list nat := match e with EField (Arr a) => a | EField (One v) => [v] | EOther _ => [] end.
Definition item_vals (i : item) : list nat := match i with IRef (Arr a) => a | IRef (One v) => [v] | IOther _ => [] end.
(** values given to the repeated field, in the order of the file *)
Definition values (b : body) : list nat :=
  flat_map item_vals (pre b) ++ match cont b with Some es => flat_map elem_vals es | None => [] end ++ flat_map item_vals (post b).
(** everything else that is declared *)
Definition other_elems (b : body) : list nat :=
  match cont b with Some es => flat_map (fun e => match e with EOther n => [n] | _ => [] end) es | None => [] end.
Definition others (b : body) : list nat :=
  flat_map (fun i => match i with IOther n => [n] | _ => [] end) (pre b ++ post b).
(** number of places that give values to the field *)
Definition places (b : body) : nat :=
  List.length (filter (fun i => match i with IRef _ => true | _ => false end) (pre b ++ post b)) +
  match cont b with Some es => List.length (filter (fun e => match e with EField _ => true | _ => false end) es) | None => 0 end.
