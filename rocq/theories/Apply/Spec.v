From Verif Require Import Base Strs.
From Verif.Apply Require Import Model.
Open Scope list_scope.

(** the refactorings that were offered, in order: the address, which one *)
Definition offers (h : list op) : list (nat * nat) := flat_map (fun o => match o with Offer u k => [(u, k)] | _ => [] end) h.
(** the application is what the refactoring it was offered as computes for the text it was applied to *)
Definition fitting {E} (compute : nat -> bytes -> option E) (h : list op) (l : applied E) : Prop :=
  exists k, nth_error (offers h) (l_id E l) = Some (l_uri E l, k) /\ compute k (l_before E l) = Some (l_edits E l).
Definition reopened (h : list op) : Prop := exists u t, In (Reopen u t) h.
Definition resolved (h : list op) : Prop := exists i, In (Resolve i) h.
(** the document is not touched by the client *)
Definition leaves (o : op) : Prop := match o with Change _ _ | Reopen _ _ | Deliver _ => False | _ => True end.
