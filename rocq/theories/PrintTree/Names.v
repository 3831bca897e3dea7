(** The names printed, against the language's rules for the place they are printed at. *)
From Coq Require Import Ascii String ZArith Lia.
From Verif Require Import Base Strs.
From Verif.Print Require Model Spec Proofs.
From Verif.PrintTree Require Import Model Grammar Spec Ast.
Open Scope list_scope.
Open Scope nat_scope.

(** the scope in which the search for a name begins: types and most options in the scope they stand in, a
    message's options in the scope around the message, names in message literals in the package *)
Definition start (u : use) (P R : list bytes) : list bytes :=
  match u with UType | UOption => P ++ R | UMessageOption => P ++ removelast R | ULiteral => P end.
Definition unshadowed (defined : list bytes -> bool) (sc F rest : list bytes) : Prop :=
  forall base s, F = base ++ rest -> prefix_of s sc -> List.length base < List.length s -> defined (s ++ firstn 1 rest) = false.

Lemma prefix_removelast {A} (b P R : list A) : R <> [] -> prefix_of b (P ++ R) -> List.length b + 1 <= List.length (P ++ R) -> prefix_of b (P ++ removelast R).
Proof.
  intros NR [r E] L. destruct (exists_last NR) as (R' & x & ->). rewrite removelast_last. destruct r as [|y r] using rev_ind.
  - exfalso. rewrite app_nil_r in E. rewrite E in L. lia.
  - rewrite app_assoc in E. rewrite app_assoc in E. apply app_inj_tail in E as [E _]. now exists r.
Qed.
Lemma names_resolve lead P R F defined u : Forall Print.Spec.component (P ++ R) -> Forall Print.Spec.component F -> F <> [] ->
  (forall p, p <> [] -> prefix_of p F -> defined p = true) -> (u = UMessageOption -> R <> []) ->
  exists rest, printed false (Print.Spec.dotted P) u (Print.Spec.dotted (P ++ R)) (Print.Proofs.full_name lead F) = Print.Spec.dotted rest /\
    (Print.Spec.resolves_to defined (start u P R) rest = Some F <-> unshadowed defined (start u P R) F rest).
Proof.
  intros FC FF N D NU.
  assert (K : exists base rest, printed false (Print.Spec.dotted P) u (Print.Spec.dotted (P ++ R)) (Print.Proofs.full_name lead F) = Print.Spec.dotted rest /\ F = base ++ rest /\ rest <> [] /\ prefix_of base (start u P R)).
  { assert (G : forall k, (k = 0%nat \/ k = 1%nat /\ R <> []) -> exists base rest, q_with false (Print.Spec.dotted P) (Z.of_nat k) (Print.Spec.dotted (P ++ R)) (Print.Proofs.full_name lead F) = Print.Spec.dotted rest /\ F = base ++ rest /\ rest <> [] /\ prefix_of base (if Nat.eqb k 0 then P ++ R else P ++ removelast R)).
    { intros k Hk. destruct (Print.Proofs.qualify_spec lead P R F k FC FF N) as (base & rest & E & EF & H). exists base, rest. unfold q_with. rewrite E. split; [reflexivity|]. split; [exact EF|].
      destruct H as [[(B1 & (r & Nr & B2) & _ & _ & B3) _]|[-> _]].
      - split; [rewrite B2 in EF; apply app_inv_head in EF; congruence|]. destruct Hk as [->|[-> NR]]; [exact B1|]. now apply prefix_removelast.
      - split; [now rewrite EF in N|]. eexists. reflexivity. }
    destruct u; cbn [printed start].
    - exact (G 0%nat (or_introl eq_refl)).
    - exact (G 0%nat (or_introl eq_refl)).
    - exact (G 1%nat (or_intror (conj eq_refl (NU eq_refl)))).
    - assert (FP : Forall Print.Spec.component P) by (now apply Forall_app in FC as [? _]).
      destruct (Print.Proofs.literal_spec lead P (Print.Spec.dotted (P ++ R)) F FP FF N) as (base & rest & E & EF & NR & H). exists base, rest. unfold q_literal, q_with. rewrite E. split; [reflexivity|]. split; [exact EF|]. split; [exact NR|].
      destruct H as [->|[-> _]]; [exists []; now rewrite app_nil_r|exists P; reflexivity]. }
  destruct K as (base & rest & E & EF & NR & PB). exists rest. split; [exact E|]. destruct rest as [|w ws]; [congruence|].
  assert (Db : defined (base ++ [w]) = true) by (apply D; [destruct base; discriminate|exists ws; rewrite EF, <- app_assoc; reflexivity]).
  rewrite EF at 1. rewrite (Print.Proofs.resolves_iff defined _ base w ws PB Db). unfold unshadowed. cbn [firstn]. split.
  - intros H b s Eb. rewrite EF in Eb. apply app_inv_tail in Eb. subst b. apply H.
  - intros H s. apply H. exact EF.
Qed.
