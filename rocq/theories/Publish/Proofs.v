From Verif Require Import Base.
From Verif.Publish Require Import Model Spec.

Lemma subseq_nil b : subseq [] b. Proof. induction b; constructor; auto. Qed.
Lemma subseq_refl a : subseq a a. Proof. induction a; constructor; auto. Qed.
Lemma subseq_app a b c d : subseq a b -> subseq c d -> subseq (a ++ c) (b ++ d).
Proof. induction 1; intros; cbn; [assumption|constructor; auto..]. Qed.
Lemma subseq_trans a b c : subseq a b -> subseq b c -> subseq a c.
Proof.
  intros H1 H2. revert a H1. induction H2 as [|x b c H2 IH|x b c H2 IH]; intros a H1.
  - assumption.
  - inversion H1; subst; [apply ss_take|apply ss_drop]; auto.
  - apply ss_drop; auto.
Qed.

Definition contents (s : state) : list nat := delivered s ++ opt (buf s) ++ opt (inside s) ++ pending s.

Lemma run_app es fs s : run (es ++ fs) s = match run es s with Some t => run fs t | None => None end.
Proof. revert s. induction es as [|e es IH]; intros s; cbn; [reflexivity|]. destruct (step e s); [apply IH|reflexivity]. Qed.
Lemma flushed_app a b : flushed (a ++ b) = flushed a ++ flushed b.
Proof. induction a as [|[] a IH]; cbn; rewrite ?IH, ?app_assoc; reflexivity. Qed.

Lemma step_contents e s t : step e s = Some t -> subseq (contents t) (contents s ++ flushed [e]).
Proof.
  destruct s as [p i b a c at_ d]. unfold contents. intros E. destruct e; cbn in E.
  - destruct p; [|discriminate]. destruct i; [discriminate|]. injection E as <-. cbn. rewrite !app_nil_r, <- !app_assoc. apply subseq_refl.
  - destruct p; [discriminate|]. destruct i; [discriminate|]. destruct at_; [|discriminate]. injection E as <-. cbn. rewrite app_nil_r. apply subseq_refl.
  - destruct p; [discriminate|]. destruct i; [discriminate|]. destruct at_; [discriminate|]. injection E as <-. cbn. rewrite app_nil_r.
    apply subseq_app; [apply subseq_refl|]. apply subseq_app; [apply subseq_refl|]. apply ss_drop, subseq_refl.
  - destruct i; [|discriminate]. destruct b; [discriminate|]. injection E as <-. cbn. rewrite app_nil_r. apply subseq_refl.
  - destruct b; [|discriminate]. destruct a; [|discriminate]. injection E as <-. cbn. rewrite app_nil_r, <- !app_assoc. apply subseq_refl.
  - injection E as <-. cbn. rewrite app_nil_r. apply subseq_refl.
  - destruct (c && a); [|discriminate]. injection E as <-. cbn. rewrite app_nil_r. apply subseq_refl.
  - destruct i; [discriminate|]. destruct (negb c && negb at_); [|discriminate]. injection E as <-. cbn. rewrite app_nil_r. apply subseq_refl.
  - destruct i; [discriminate|]. destruct (c && at_); [|discriminate]. injection E as <-. cbn. rewrite app_nil_r. apply subseq_refl.
Qed.

Lemma run_contents es s t : run es s = Some t -> subseq (contents t) (contents s ++ flushed es).
Proof.
  revert s. induction es as [|e es IH]; intros s E; cbn in E.
  - injection E as <-. cbn. rewrite app_nil_r. apply subseq_refl.
  - destruct (step e s) as [u|] eqn:S; [|discriminate]. apply step_contents in S. apply IH in E.
    eapply subseq_trans; [exact E|]. change (e :: es) with ([e] ++ es). rewrite flushed_app, app_assoc.
    apply subseq_app; [exact S|apply subseq_refl].
Qed.

(** without cancellation nothing is dropped *)
Definition live (s : state) : Prop := alive s = true /\ cancelled s = false /\ attached s = true.
Lemma step_live e s t : live s -> e <> ECancel -> step e s = Some t ->
  live t /\ contents t = contents s ++ flushed [e].
Proof.
  destruct s as [p i b a c at_ d]. unfold live, contents. cbn. intros (-> & -> & ->) NC E. destruct e; cbn in E.
  - destruct p; [|discriminate]. destruct i; [discriminate|]. injection E as <-. cbn. rewrite !app_nil_r, <- !app_assoc. auto.
  - destruct p; [discriminate|]. destruct i; [discriminate|]. injection E as <-. cbn. rewrite app_nil_r. auto.
  - destruct p; [discriminate|]. destruct i; [discriminate|]. discriminate.
  - destruct i; [|discriminate]. destruct b; [discriminate|]. injection E as <-. cbn. rewrite app_nil_r. auto.
  - destruct b; [|discriminate]. injection E as <-. cbn. rewrite app_nil_r, <- !app_assoc. auto.
  - now destruct NC.
  - discriminate.
  - destruct i; discriminate.
  - destruct i; discriminate.
Qed.
Lemma run_live es s t : live s -> ~ In ECancel es -> run es s = Some t ->
  live t /\ contents t = contents s ++ flushed es.
Proof.
  revert s. induction es as [|e es IH]; intros s L NC E; cbn in E.
  - injection E as <-. cbn. now rewrite app_nil_r.
  - destruct (step e s) as [u|] eqn:S; [|discriminate].
    destruct (step_live e s u L) as [LU CU]; [intros ->; apply NC; now left|assumption|].
    destruct (IH u LU) as [LT CT]; [intros H; apply NC; now right|assumption|].
    split; [assumption|]. rewrite CT, CU. change (e :: es) with ([e] ++ es). now rewrite flushed_app, app_assoc.
Qed.

Lemma internal_cost e s t : internal e -> step e s = Some t -> cost t < cost s.
Proof.
  destruct s as [p i b a c at_ d]. unfold internal, cost. cbn [In]. intros H E.
  destruct H as [<-|[<-|[<-|[<-|[]]]]]; cbn in E.
  - destruct p; [discriminate|]. destruct i; [discriminate|]. destruct at_; [|discriminate]. injection E as <-. cbn. destruct b; cbn; lia.
  - destruct p; [discriminate|]. destruct i; [discriminate|]. destruct at_; [discriminate|]. injection E as <-. cbn. destruct b; cbn; lia.
  - destruct i; [|discriminate]. destruct b; [discriminate|]. injection E as <-. cbn. lia.
  - destruct b; [|discriminate]. destruct a; [|discriminate]. injection E as <-. cbn. destruct i; cbn; lia.
Qed.

Lemma alive_progress s : alive s = true -> ~ done s -> exists e t, internal e /\ step e s = Some t.
Proof.
  destruct s as [p i b a c at_ d]. unfold done, internal. cbn [alive pending inside]. intros -> ND.
  destruct i as [r|].
  - destruct b as [q|].
    + exists ERecv. eexists. split; [cbn; tauto|reflexivity].
    + exists ESend. eexists. split; [cbn; tauto|reflexivity].
  - destruct p as [|r p]; [now destruct ND|]. destruct at_.
    + exists EEnter. eexists. split; [cbn; tauto|reflexivity].
    + exists ESkip. eexists. split; [cbn; tauto|reflexivity].
Qed.

Definition hopeless (s : state) : Prop := inside s <> None /\ buf s <> None /\ alive s = false.
Lemma hopeless_step e s t : hopeless s -> step e s = Some t -> hopeless t.
Proof.
  destruct s as [p i b a c at_ d]. unfold hopeless. cbn. intros (HI & HB & ->) E.
  destruct i as [r|]; [|now destruct HI]. destruct b as [q|]; [|now destruct HB].
  destruct e; cbn in E; try (destruct p; discriminate); try discriminate.
  - injection E as <-. cbn. auto.
  - rewrite andb_false_r in E. discriminate.
Qed.
Lemma hopeless_run es s t : hopeless s -> run es s = Some t -> hopeless t.
Proof.
  revert s. induction es as [|e es IH]; intros s H E; cbn in E; [now injection E as <-|].
  destruct (step e s) eqn:S; [|discriminate]. eapply IH; [|eassumption]. eapply hopeless_step; eauto.
Qed.

Lemma dead_cancelled es s t : (alive s = false -> cancelled s = true) -> run es s = Some t -> alive t = false -> cancelled t = true.
Proof.
  revert s. induction es as [|e es IH]; intros s H E; cbn in E; [injection E as <-; auto|].
  destruct (step e s) as [u|] eqn:S; [|discriminate]. eapply (IH u); [|assumption].
  destruct s as [p i b a c at_ d]. cbn in H.
  destruct e; cbn in S;
    repeat match type of S with context [match ?x with _ => _ end] => destruct x eqn:?; try discriminate end;
    injection S as <-; cbn; auto.
  - apply andb_prop in Heqb0. tauto.
Qed.

Lemma skip_all p : forall b a c d, exists es, run es (mkState p None b a c false d) = Some (mkState [] None b a c false d).
Proof.
  induction p as [|r p IH]; intros; [now exists []|]. destruct (IH b a c d) as [es E]. exists (ESkip :: es). exact E.
Qed.

Lemma alive_finish n : forall s, cost s <= n -> alive s = true -> can_finish s.
Proof.
  induction n as [|n IH]; intros s C A.
  - exists [], s. split; [reflexivity|]. destruct s as [p i b a c at_ d]. unfold cost in C. cbn in C.
    destruct p; [|cbn in C; lia]. destruct i; [cbn in C; lia|]. now split.
  - destruct s as [p i b a c at_ d] eqn:ES. rewrite <- ES in *.
    assert (D : done s \/ ~ done s).
    { rewrite ES. unfold done. cbn. destruct p; [destruct i; [right; intros [_ [=]]|left; auto]|right; intros [[=] _]]. }
    destruct D as [D|D]; [exists [], s; now split|].
    destruct (alive_progress s A D) as (e & t & HI & E).
    assert (CT := internal_cost e s t HI E).
    destruct (IH t) as (es & u & R & DU); [lia| |].
    { rewrite ES in E, A. cbn in A. subst a. unfold internal in HI. cbn [In] in HI.
      destruct HI as [<-|[<-|[<-|[<-|[]]]]]; cbn in E;
      repeat match type of E with context [match ?x with _ => _ end] => destruct x; try discriminate end;
      injection E as <-; reflexivity. }
    exists (e :: es), u. cbn [run]. now rewrite E.
Qed.

Lemma finish_iff s : (alive s = false -> cancelled s = true) -> (can_finish s <-> ~ hopeless s).
Proof.
  intros DC. split.
  - intros (es & t & R & D) H. destruct (hopeless_run _ _ _ H R) as [HI _]. now destruct D.
  - intros NH. destruct (alive s) eqn:A; [eapply alive_finish; eauto|].
    specialize (DC eq_refl). destruct s as [p i b a c at_ d]. cbn in A, DC. subst. unfold hopeless in NH. cbn in NH.
    assert (G : forall b', can_finish (mkState p None b' false true at_ d)).
    { intros b'. destruct at_.
      - destruct (skip_all p b' false true d) as [es E]. exists (EDetach :: es). eexists. split; [exact E|now split].
      - destruct (skip_all p b' false true d) as [es E]. exists es. eexists. split; [exact E|now split]. }
    destruct i as [r|]; [|apply G]. destruct b as [q|]; [exfalso; apply NH; repeat split; discriminate|].
    destruct (G (Some r)) as (es & t & E & D). exists (ESend :: es), t. now split.
Qed.
