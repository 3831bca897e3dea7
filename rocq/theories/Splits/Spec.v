(** The name of a type as it is written. *)
From Coq Require Import Ascii String.
From Verif Require Import Base Strs.
Open Scope list_scope.

(** names and dots, with blanks and comments after each *)
Definition written := list (bytes * bytes).
Definition source (w : written) : bytes := List.concat (map (fun x => fst x ++ snd x) w).
(** the name that is meant *)
Definition meant (w : written) : bytes := List.concat (map fst w).
Definition closed_up (w : written) : Prop := Forall (fun x => snd x = []) w.
(** the name typed so far, with the cursor after [k] bytes of the source *)
Fixpoint so_far (w : written) (k : nat) : bytes :=
  match w with
  | [] => []
  | (t, g) :: r => if k <=? List.length t then firstn k t else t ++ so_far r (k - List.length (t ++ g))
  end.
