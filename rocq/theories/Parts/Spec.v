(** Names of options with dots. *)
From Coq Require Import Ascii String.
From Verif Require Import Base Strs.
From Verif.Offers Require Import Model.
From Verif.Parts Require Import Model.
Import ListNotations.
Open Scope list_scope.

(** references separated by dots, and perhaps a dot at the end *)
Definition dotted (rs : list (ref * bytes)) (trailing : bool) : list part :=
  match rs with
  | [] => []
  | (r, n) :: rest => Ref r n :: flat_map (fun x => [Dot; Ref (fst x) (snd x)]) rest ++ (if trailing then [Dot] else [])
  end.
(** the message that the j-th part of a name is a field of: the options themselves, or the type of the part before;
    [types]: the descriptors by index among the parts and dots *)
Definition scope (options : message) (types : nat -> prev) (j : nat) (m : message) : Prop :=
  match j with 0 => m = options | S i => types (2 * i) = PField (Some m) end.
