From Coq Require Import Ascii String ZArith.
From Verif Require Import Base Strs.
From Verif.Completion Require Import Model.
Open Scope list_scope.

(** Names as lists of parts. *)
Definition part (w : bytes) : Prop := w <> [] /\ ~ In dot w.
Definition parts (ws : list bytes) : Prop := Forall part ws.
Definition dotted (ws : list bytes) : bytes := join_with dot ws.

(** How a relative name is resolved: from the innermost scope outwards, the
    first scope that declares the first part decides. *)
Fixpoint resolve (declared : list (list bytes)) (rscope : list bytes) (rel : list bytes) : option (list bytes) :=
  match rel with
  | [] => None
  | h :: _ =>
      if existsb (fun d => if list_eq_dec (list_eq_dec ascii_dec) d (rev rscope ++ [h]) then true else false) declared
      then Some (rev rscope ++ rel)
      else match rscope with
           | [] => None
           | _ :: outer => resolve declared outer rel
           end
  end.

Definition count_pre (l : list citem) : nat := List.length (filter preselect l).
