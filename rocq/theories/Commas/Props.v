(** Property theorems for the arrays put together when options are simplified (C176). *)
From Coq Require Import Lia.
From Verif Require Import Base.
From Verif.Commas Require Import Model Spec Proofs.
Open Scope list_scope.

(** Values gathered in a new array are printed as an array of all of them in order. *)
Theorem C176_new : forall ps vss, Forall2 gives ps vss -> exists out, print_array (join [] ps) = Some out /\ array false out (List.concat vss).
Proof.
  intros ps vss F. destruct (join_counts false [] [] ps vss (arr_nil _) F) as [EV C]. unfold print_array. rewrite EV. cbn [app] in *. apply write_ok; [apply commas_all|].
  destruct (Nat.le_gt_cases (pred (List.length (List.concat vss))) (List.length (split_commas (join [] ps)))) as [H|H]; [exact H|]. apply C in H. tauto.
Qed.
Example C176_new_case : Forall2 gives [POne 1; PArray [V 2; Comma; V 3]; PArray []; PArray [V 4; Comma]] [[1]; [2; 3]; []; [4]] /\
  print_array (join [] [POne 1; PArray [V 2; Comma; V 3]; PArray []; PArray [V 4; Comma]]) = Some [V 1; Comma; V 2; Comma; V 3; Comma; V 4].
Proof.
  split; [|reflexivity]. repeat constructor.
  - apply (gi_array false). constructor. apply (arr_one false).
  - apply (gi_array false). constructor.
  - apply (gi_array true). apply (arr_one true).
Qed.
(** So are values added to an array that is there, if it is empty or its last value has a comma too.  Missing: arrays
    without that comma, see below. *)
Theorem C176_extended_partial : forall l ts vs ps vss, array l ts vs -> Forall2 gives ps vss -> vs = [] \/ l = true \/ List.concat vss = [] ->
  exists out, print_array (join ts ps) = Some out /\ array false out (vs ++ List.concat vss).
Proof.
  intros l ts vs ps vss A F H. destruct (join_counts l ts vs ps vss A F) as [EV C]. unfold print_array. rewrite EV. apply write_ok; [apply commas_all|].
  destruct (Nat.le_gt_cases (pred (List.length (vs ++ List.concat vss))) (List.length (split_commas (join ts ps)))) as [G|G]; [exact G|]. apply C in G. destruct G as (G1 & G2 & G3), H as [H|[H|H]]; congruence.
Qed.
Example C176_extended_case : array true [V 1; Comma; V 2; Comma] [1; 2] /\ print_array (join [V 1; Comma; V 2; Comma] [POne 3; PArray [V 4]]) = Some [V 1; Comma; V 2; Comma; V 3; Comma; V 4].
Proof. split; [|reflexivity]. constructor. apply (arr_one true). Qed.
(** An array that is there, whose last value has no comma, gets no comma before what is added: printing then fails. *)
Theorem C176_extended_refuted : forall ts vs ps vss, array false ts vs -> Forall2 gives ps vss -> vs <> [] -> List.concat vss <> [] -> print_array (join ts ps) = None.
Proof.
  intros ts vs ps vss A F N M. destruct (join_counts false ts vs ps vss A F) as [EV C]. unfold print_array. rewrite EV. apply write_fails. apply C. auto.
Qed.
Example C176_refuted_case : array false [V 1; Comma; V 2] [1; 2] /\ join [V 1; Comma; V 2] [POne 3] = [V 1; Comma; V 2; V 3] /\ print_array (join [V 1; Comma; V 2] [POne 3]) = None.
Proof. split; [|split; reflexivity]. constructor. apply (arr_one false). Qed.

Print Assumptions C176_new.
Print Assumptions C176_extended_partial.
Print Assumptions C176_extended_refuted.
