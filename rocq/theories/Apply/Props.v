(** C149: a refactoring changes the text it was computed for, and nothing else. *)
From Coq Require Import Ascii String.
From Verif Require Import Base Strs.
From Verif.Apply Require Import Model Spec Proofs.
Open Scope list_scope.

(** A refactoring for the examples: number k puts k times an x in front of a text that is not empty; its edit
    is the whole new text. *)
Definition comp (k : nat) (t : bytes) : option bytes := match t with [] => None | _ => Some (repeat "x"%char k ++ t) end.
Definition put (e t : bytes) : bytes := e.

(** With a client that asks for edits to be resolved, and that opens no document a second time, whatever the
    server offers, however late an action is chosen and whatever is typed meanwhile: edits are applied only to a
    text they were computed from.  Missing: documents that are opened again, see below. *)
Theorem C149_fitting_partial : forall E (compute : nat -> bytes -> option E) apply h, ~ reopened h ->
  forall l, In l (log E (run E compute apply true h)) -> fitting compute h l.
Proof. intros E compute apply h R l. apply (f_log E compute true h _ (fits_run E compute apply true h R) eq_refl). Qed.
Example C149_fitting_case :
  let h := [Change 0 (b_ "ab"); Compile 0; Offer 0 2; Offer 0 1; Resolve 0; Deliver 0; Resolve 1; Deliver 1] in
  ~ reopened h /\ log bytes (run bytes comp put true h) = [mkApplied bytes 0 0 (b_ "ab") (b_ "xxab")].
Proof. split; [|vm_compute; reflexivity]. intros (u & t & H). cbn in H. intuition discriminate. Qed.

(** Every offered refactoring is applied at most once. *)
Theorem C149_once : forall E (compute : nat -> bytes -> option E) apply supports h, NoDup (map (l_id E) (log E (run E compute apply supports h))).
Proof. intros E compute apply supports h. apply (i_log_once _ _ _ (ids_run E compute apply supports h)). Qed.
Example C149_once_case : List.length (log bytes (run bytes comp put true [Change 0 (b_ "ab"); Compile 0; Offer 0 2; Resolve 0; Resolve 0; Deliver 0; Deliver 0; Compile 0; Offer 0 1; Resolve 1; Deliver 1])) = 2.
Proof. vm_compute. reflexivity. Qed.

(** And it has its effect when it is resolved in time and the text has not been touched, whatever else the
    server and the client did meanwhile. *)
Theorem C149_effect : forall E (compute : nat -> bytes -> option E) apply supports h u k between e,
  let i := List.length (offers h) in
  let before := text (docs E (run E compute apply supports h) u) in
  compute k before = Some e -> Forall leaves between -> ~ In (Expire i) between -> ~ In (Resolve i) between ->
  text (docs E (run E compute apply supports (h ++ Compile u :: Offer u k :: between ++ [Resolve i; Deliver i])) u) = apply e before.
Proof. intros E compute apply supports h u k g e i before C L X R. now apply takes_effect. Qed.
Example C149_effect_case :
  text (docs bytes (run bytes comp put false ([Change 0 (b_ "ab")] ++ Compile 0 :: Offer 0 2 :: [Offer 0 1; Compile 1; Expire 1; Choose 0] ++ [Resolve 0; Deliver 0])) 0) = b_ "xxab" /\
  Forall leaves [Offer 0 1; Compile 1; Expire 1; Choose 0].
Proof. split; [vm_compute; reflexivity|repeat constructor]. Qed.

(** Refuted for other clients: the edits have no version, and go into a text they were not computed for. *)
Theorem C149_unversioned_refuted : exists h l, ~ reopened h /\ In l (log bytes (run bytes comp put false h)) /\ ~ fitting comp h l.
Proof.
  exists [Change 0 (b_ "ab"); Compile 0; Offer 0 1; Change 0 (b_ "cd"); Resolve 0; Deliver 0], (mkApplied bytes 0 0 (b_ "cd") (b_ "xab")).
  split; [intros (u & t & H); cbn in H; intuition discriminate|]. split; [vm_compute; auto|]. intros (k & K & C). cbn in K. injection K as <-. vm_compute in C. discriminate.
Qed.
(** Refuted when a document is closed and opened again, since versions then start anew. *)
Theorem C149_reopened_refuted : exists h l, In l (log bytes (run bytes comp put true h)) /\ ~ fitting comp h l.
Proof.
  exists [Reopen 0 (b_ "ab"); Compile 0; Offer 0 1; Reopen 0 (b_ "cd"); Resolve 0; Deliver 0], (mkApplied bytes 0 0 (b_ "cd") (b_ "xab")).
  split; [vm_compute; auto|]. intros (k & K & C). cbn in K. injection K as <-. vm_compute in C. discriminate.
Qed.
(** Refuted for clients that do not resolve actions, which the server does not ask for: the actions offered to
    them do nothing, ever. *)
Theorem C149_only_resolved : forall E (compute : nat -> bytes -> option E) apply supports h, ~ resolved h -> log E (run E compute apply supports h) = [].
Proof. intros E compute apply supports h R. now apply no_resolve. Qed.
Theorem C149_not_resolved_refuted : exists h u k i e, nth_error (offers h) i = Some (u, k) /\ comp k (text (docs bytes (run bytes comp put false h) u)) = Some e /\
  log bytes (run bytes comp put false (h ++ [Choose i])) = [].
Proof. exists [Change 0 (b_ "ab"); Compile 0; Offer 0 1], 0, 1, 0, (b_ "xab"). vm_compute. auto. Qed.
Example C149_only_resolved_case : ~ resolved [Change 0 (b_ "ab"); Compile 0; Offer 0 1; Choose 0].
Proof. intros (i & H). cbn in H. intuition discriminate. Qed.

Print Assumptions C149_fitting_partial.
Print Assumptions C149_once.
Print Assumptions C149_effect.
Print Assumptions C149_unversioned_refuted.
Print Assumptions C149_reopened_refuted.
Print Assumptions C149_only_resolved.
Print Assumptions C149_not_resolved_refuted.
