(** Lemmas on names. *)
From Coq Require Import Ascii String.
From Verif Require Import Base Strs.
From Verif.Completion Require Import Model.
From Verif.Details Require Import Model Spec.
Open Scope list_scope.

Lemma cut_last_none s : ~ In dot s -> cut_last s = None.
Proof.
  induction s as [|c s IH]; intro N; [reflexivity|]. cbn [cut_last]. rewrite IH by (intro I; apply N; now right).
  destruct (Ascii.eqb c dot) eqn:E; [|reflexivity]. apply Ascii.eqb_eq in E. exfalso. apply N. now left.
Qed.
Lemma cut_last_dot p n : ~ In dot n -> cut_last (p ++ dot :: n) = Some (p, n).
Proof.
  intro N. induction p as [|c p IH]; cbn [app cut_last]; [now rewrite (cut_last_none n N)|]. now rewrite IH.
Qed.
