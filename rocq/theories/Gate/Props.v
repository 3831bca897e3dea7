(** Property theorems for the check of a file before a request works on it (C167). *)
From Coq Require Import Ascii String.
From Verif Require Import Base Strs.
From Verif.Diagnostics Require Import Model.
From Verif.Gate Require Import Model Spec Proofs.
Open Scope list_scope.

(** ** C167 *)
(** Whatever happened before a compilation cleared the problems of a file, and whatever happened to other files: the
    request is accepted if since then no problem was reported for the file that makes its text unfit. *)
Theorem C167_accepted : forall class_of h1 h2 p t strict, (forall d, reported p d h2 -> ~ unfit class_of strict d) ->
  well_formed class_of (Some p) strict (run (h1 ++ Clear p t :: h2)) = Some true.
Proof.
  intros class_of h1 h2 p t strict N. destruct (well_formed class_of (Some p) strict (run (h1 ++ Clear p t :: h2))) as [[|]|] eqn:E; [reflexivity| |rewrite answer in E; discriminate].
  exfalso. apply refused_iff in E as (d & I & U). unfold run, run_from in I. rewrite fold_left_app in I. cbn [fold_left] in I. apply run_only in I as [I|I]; [rewrite held_clear in I; destruct I|]. exact (N d I U).
Qed.
(** The same for a file that never had problems. *)
Theorem C167_new : forall class_of h p strict, (forall d, reported p d h -> ~ unfit class_of strict d) -> well_formed class_of (Some p) strict (run h) = Some true.
Proof.
  intros class_of h p strict N. destruct (well_formed class_of (Some p) strict (run h)) as [[|]|] eqn:E; [reflexivity| |rewrite answer in E; discriminate].
  exfalso. apply refused_iff in E as (d & I & U). apply run_only in I as [I|I]; [destruct I|]. exact (N d I U).
Qed.
(** It is refused as long as such a problem that was reported for it has not been cleared or withdrawn. *)
Theorem C167_refused : forall class_of h1 h2 p d t strict, In (Create p) h1 -> unfit class_of strict d -> ~ cleared p h2 -> ~ withdrawn d h2 ->
  well_formed class_of (Some p) strict (run (h1 ++ Add p d t :: h2)) = Some false.
Proof.
  intros class_of h1 h2 p d t strict K U NC NR. apply refused_iff. exists d. split; [|exact U]. unfold run, run_from. rewrite fold_left_app. cbn [fold_left]. apply run_keeps; [|exact NC|exact NR].
  cbn [step]. rewrite held_on, Nat.eqb_refl. pose proof (created h1 p K) as C. unfold run, run_from in C. destruct (lists (fold_left step h1 init) p) as [l|]; [|congruence]. cbn [l_add items]. apply in_or_app. right. now left.
Qed.
(** So after a compilation, with nothing withdrawn: refused exactly if it has reported such a problem. *)
Theorem C167_iff : forall class_of h1 h2 p t strict, In (Create p) h1 -> ~ cleared p h2 -> (forall d, unfit class_of strict d -> ~ withdrawn d h2) ->
  (well_formed class_of (Some p) strict (run (h1 ++ Clear p t :: h2)) = Some false <-> exists d, reported p d h2 /\ unfit class_of strict d).
Proof.
  intros class_of h1 h2 p t strict K NC NR. split.
  - intro E. apply refused_iff in E as (d & I & U). exists d. split; [|exact U]. unfold run, run_from in I. rewrite fold_left_app in I. cbn [fold_left] in I. apply run_only in I as [I|I]; [rewrite held_clear in I; destruct I|exact I].
  - intros (d & (u & I) & U). apply in_split in I as (a & b & ->). replace (h1 ++ Clear p t :: a ++ Add p d u :: b) with ((h1 ++ Clear p t :: a) ++ Add p d u :: b) by now rewrite <- app_assoc.
    apply C167_refused; [apply in_or_app; now left|exact U| |].
    + intros (v & X). apply NC. exists v. apply in_or_app. right. now right.
    + intros (v & X). apply (NR d U). exists v. apply in_or_app. right. now right.
Qed.
(** What is formatted may also be completed, renamed and highlighted. *)
Theorem C167_strict : forall class_of resolved s, well_formed class_of resolved true s = Some true -> well_formed class_of resolved false s = Some true.
Proof.
  intros class_of [p|] s E; [|discriminate]. destruct (well_formed class_of (Some p) false s) as [[|]|] eqn:F; [reflexivity| |rewrite answer in F; discriminate].
  apply refused_iff in F as (d & I & U). assert (R : well_formed class_of (Some p) true s = Some false); [|congruence].
  apply refused_iff. exists d. split; [exact I|]. inversion U; subst. now constructor.
Qed.
(** Only a document without a path is an error. *)
Theorem C167_error : forall class_of resolved strict s, well_formed class_of resolved strict s = None <-> resolved = None.
Proof. intros class_of [p|] strict s; [rewrite answer|]; split; try discriminate; reflexivity. Qed.
(** Problems of one file do not matter for another one. *)
Theorem C167_other : forall class_of h p strict, (forall d, ~ reported p d h) -> well_formed class_of (Some p) strict (run h) = Some true.
Proof. intros class_of h p strict N. apply C167_new. intros d R. now destruct (N d). Qed.

Definition sample_class (n : nat) : class := match n with 0 => ParseError | 1 => Extended false | 2 => Extended true | _ => OtherError end.
Definition problem (n : nat) : diag := mkDiag (mkSpan 1 n (S n)) [] n.
Example C167_case :
  let h1 := [Create 1; Add 1 (problem 0) 1] in let h2 := [Add 1 (problem 1) 3; Create 2; Add 2 (problem 0) 5] in
  In (Create 1) h1 /\ ~ cleared 1 h2 /\ (forall d, unfit sample_class true d -> ~ withdrawn d h2) /\
  well_formed sample_class (Some 1) true (run (h1 ++ Clear 1 2 :: h2)) = Some false /\
  well_formed sample_class (Some 1) false (run (h1 ++ Clear 1 2 :: h2)) = Some true /\
  well_formed sample_class (Some 1) false (run h1) = Some false /\ well_formed sample_class (Some 3) true (run h1) = Some true.
Proof.
  cbv zeta. split; [now left|]. split; [intros (t & I); repeat destruct I as [I|I]; try discriminate; destruct I|].
  split; [intros d _ (t & I); repeat destruct I as [I|I]; try discriminate; destruct I|]. vm_compute. auto.
Qed.

Print Assumptions C167_accepted.
Print Assumptions C167_new.
Print Assumptions C167_refused.
Print Assumptions C167_iff.
Print Assumptions C167_strict.
Print Assumptions C167_error.
Print Assumptions C167_other.
