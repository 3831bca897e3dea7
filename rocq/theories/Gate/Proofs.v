(** Lemmas on the diagnostics of a file along a history. *)
From Coq Require Import Ascii String.
From Verif Require Import Base Strs.
From Verif.Diagnostics Require Import Model.
From Verif.Gate Require Import Model Spec.
Open Scope list_scope.

Definition held (s : state) (p : nat) : list diag := match lists s p with Some l => items l | None => [] end.

Lemma answer class_of p strict s : well_formed class_of (Some p) strict s = Some (negb (existsb (blocks class_of strict) (held s p))).
Proof. unfold well_formed, get, held. destruct (lists s p) as [l|]; reflexivity. Qed.
Lemma blocks_unfit class_of strict d : blocks class_of strict d = true <-> unfit class_of strict d.
Proof.
  unfold blocks. split.
  - destruct (class_of (what d)) as [|c|] eqn:E; intro H; [now constructor|apply andb_true_iff in H as [-> H]; destruct c; [discriminate|now constructor]|discriminate].
  - intros [st d0 E|d0 E]; rewrite E; reflexivity.
Qed.
Lemma refused_iff class_of p strict s : well_formed class_of (Some p) strict s = Some false <-> exists d, In d (held s p) /\ unfit class_of strict d.
Proof.
  rewrite answer. split.
  - intro H. injection H as H. apply negb_false_iff, existsb_exists in H as (d & I & B). exists d. split; [exact I|]. now apply blocks_unfit.
  - intros (d & I & U). f_equal. apply negb_false_iff, existsb_exists. exists d. split; [exact I|]. now apply blocks_unfit.
Qed.

Lemma span_eqb_eq a b : span_eqb a b = true <-> a = b.
Proof.
  unfold span_eqb. destruct a, b. cbn. rewrite !andb_true_iff, !Nat.eqb_eq. split; [intros [[-> ->] ->]; reflexivity|intro E; injection E as -> -> ->; auto].
Qed.
Lemma removed_in r ds ds' d : remove_first r ds = Some ds' -> In d ds' -> In d ds.
Proof.
  revert ds'. induction ds as [|x ds IH]; intros ds' E I; [discriminate|]. cbn in E. destruct (span_eqb (drange x) r); [injection E as <-; now right|].
  destruct (remove_first r ds) as [y|]; [|discriminate]. injection E as <-. destruct I as [->|I]; [now left|right; eauto].
Qed.
Lemma removed_keeps r ds ds' d : remove_first r ds = Some ds' -> In d ds -> drange d <> r -> In d ds'.
Proof.
  revert ds'. induction ds as [|x ds IH]; intros ds' E I N; [discriminate|]. cbn in E. destruct (span_eqb (drange x) r) eqn:X.
  - injection E as <-. destruct I as [->|I]; [apply span_eqb_eq in X; congruence|exact I].
  - destruct (remove_first r ds) as [y|]; [|discriminate]. injection E as <-. destruct I as [->|I]; [now left|right; eauto].
Qed.
Lemma held_on q f s p : held (on_list q f s) p = match lists s p with Some l => if p =? q then items (f l) else items l | None => [] end.
Proof.
  unfold held, on_list. destruct (lists s q) as [l|] eqn:E; cbn [lists].
  - unfold upd. destruct (Nat.eqb_spec p q) as [->|N]; [now rewrite E|]. now destruct (lists s p).
  - destruct (Nat.eqb_spec p q) as [->|N]; [now rewrite E|]. now destruct (lists s p).
Qed.
Lemma held_create q s p : held (create q s) p = held s p.
Proof.
  unfold held, create. destruct (lists s q) eqn:E; [reflexivity|]. cbn [lists]. unfold upd. destruct (Nat.eqb_spec p q) as [->|N]; [now rewrite E|].
  reflexivity.
Qed.
Lemma held_flush q s p : held (flush_one q s) p = held s p.
Proof.
  unfold held, flush_one. destruct (lists s q) as [l|] eqn:E; [|reflexivity]. destruct (dirty l); [|reflexivity]. cbn [lists]. unfold upd.
  destruct (Nat.eqb_spec p q) as [->|N]; [now rewrite E|reflexivity].
Qed.
Lemma step_only s o p d : In d (held (step s o) p) -> In d (held s p) \/ exists t, o = Add p d t.
Proof.
  destruct o as [q|q e t|q t|r t|q| | |q|q]; cbn [step]; try (now left).
  - rewrite held_create. now left.
  - rewrite held_on. unfold held. destruct (lists s p) as [l|]; [|intros []]. destruct (Nat.eqb_spec p q) as [->|N]; [|now left].
    cbn [l_add items]. intro I. apply in_app_or in I as [I|[->|[]]]; [now left|right; eauto].
  - rewrite held_on. unfold held. destruct (lists s p) as [l|]; [|intros []]. destruct (Nat.eqb_spec p q) as [->|N]; [intros []|now left].
  - rewrite held_on. unfold held. destruct (lists s p) as [l|]; [|intros []]. destruct (Nat.eqb_spec p (sfile r)) as [->|N]; [|now left].
    unfold l_delete_related. destruct (remove_first r (items l)) as [ds|] eqn:E; [|now left]. intro I. left. exact (removed_in _ _ _ _ E I).
  - rewrite held_flush. now left.
Qed.
Lemma step_keeps s o p d : In d (held s p) -> (forall t, o <> Clear p t) -> (forall t, o <> DeleteRelated (drange d) t) -> In d (held (step s o) p).
Proof.
  intros I NC NR. destruct o as [q|q e t|q t|r t|q| | |q|q]; cbn [step]; try exact I.
  - now rewrite held_create.
  - rewrite held_on. unfold held in I. destruct (lists s p) as [l|]; [|destruct I]. destruct (p =? q); [|exact I]. cbn [l_add items]. apply in_or_app. now left.
  - rewrite held_on. unfold held in I. destruct (lists s p) as [l|]; [|destruct I]. destruct (Nat.eqb_spec p q) as [->|N]; [|exact I]. now destruct (NC t).
  - rewrite held_on. unfold held in I. destruct (lists s p) as [l|]; [|destruct I]. destruct (p =? sfile r); [|exact I]. unfold l_delete_related.
    destruct (remove_first r (items l)) as [ds|] eqn:E; [|exact I]. apply (removed_keeps _ _ _ _ E I). intro X. apply (NR t). now rewrite X.
  - now rewrite held_flush.
Qed.
Lemma step_known s o p : lists s p <> None -> lists (step s o) p <> None.
Proof.
  intro K. assert (U : forall q l, upd (lists s) q (Some l) p <> None).
  { intros q l. unfold upd. destruct (Nat.eqb p q); [discriminate|exact K]. }
  destruct o as [q|q e t|q t|r t|q| | |q|q]; cbn [step]; try exact K; unfold create, on_list, flush_one; try (destruct (lists s (sfile r)); [apply U|exact K]); destruct (lists s q) as [l|]; try exact K; try apply U.
  destruct (dirty l); [apply U|exact K].
Qed.
Lemma run_known h : forall s p, lists s p <> None -> lists (run_from s h) p <> None.
Proof. induction h as [|o h IH]; intros s p K; [exact K|]. apply IH. now apply step_known. Qed.
Lemma created h p : In (Create p) h -> lists (run h) p <> None.
Proof.
  intro I. apply in_split in I as (a & b & ->). unfold run, run_from. rewrite fold_left_app. apply run_known. cbn [step]. unfold create.
  destruct (lists (fold_left step a init) p) eqn:E; [congruence|]. cbn [lists]. unfold upd. rewrite Nat.eqb_refl. discriminate.
Qed.
Lemma run_only h : forall s p d, In d (held (run_from s h) p) -> In d (held s p) \/ reported p d h.
Proof.
  induction h as [|o h IH]; intros s p d I; [now left|]. apply IH in I as [I|(t & I)]; [|right; exists t; now right].
  apply step_only in I as [I|(t & ->)]; [now left|right; exists t; now left].
Qed.
Lemma run_keeps h : forall s p d, In d (held s p) -> ~ cleared p h -> ~ withdrawn d h -> In d (held (run_from s h) p).
Proof.
  induction h as [|o h IH]; intros s p d I NC NR; [exact I|]. apply IH.
  - apply step_keeps; [exact I|intros t ->; apply NC; exists t; now left|intros t ->; apply NR; exists t; now left].
  - intros (t & X). apply NC. exists t. now right.
  - intros (t & X). apply NR. exists t. now right.
Qed.
Lemma held_clear s p t : held (step s (Clear p t)) p = [].
Proof. cbn [step]. rewrite held_on, Nat.eqb_refl. now destruct (lists s p). Qed.
