(** Property theorems for publishing reports (C56, C57). *)
From Verif Require Import Base.
From Verif.Publish Require Import Model Spec Proofs.

(** C56: whatever happens, the client receives reports at most once each and
    in the order they were flushed. *)
Theorem C56_published_in_flush_order :
  forall es s, run es init = Some s -> subseq (delivered s) (flushed es).
Proof.
  intros es s R. apply run_contents in R. eapply subseq_trans; [|exact R].
  unfold contents. rewrite <- (app_nil_r (delivered s)) at 1. apply subseq_app; [apply subseq_refl|apply subseq_nil].
Qed.
(** Until the workspace is closed none is lost: what was flushed is what was
    delivered, what is in the channel and what the running flush still holds. *)
Theorem C56_nothing_lost_while_open :
  forall es s, ~ In ECancel es -> run es ready = Some s ->
  flushed es = delivered s ++ opt (buf s) ++ opt (inside s) ++ pending s.
Proof.
  intros es s NC R. destruct (run_live es ready s) as [_ C]; [now repeat split|assumption|assumption|].
  symmetry. exact C.
Qed.
Example C56_example : exists s, run [EFlush [1; 2]; EEnter; ESend; EEnter; ERecv; ESend; ERecv] ready = Some s /\ delivered s = [1; 2] /\ done s.
Proof. eexists. repeat split. Qed.

(** C57: while the workspace is open, a flush that is not complete can go on,
    and every sequence of such steps is bounded, so it completes. *)
Theorem C57_flush_completes_while_open_partial :
  forall es s, ~ In ECancel es -> run es init = Some s ->
  (~ done s -> exists e t, internal e /\ step e s = Some t) /\
  (forall fs t, (forall e, In e fs -> internal e) -> run fs s = Some t -> List.length fs <= cost s).
Proof.
  intros es s NC R. split.
  - apply alive_progress. destruct (alive s) eqn:A; [reflexivity|exfalso].
    assert (G : forall es' u v, cancelled u = false -> alive u = true -> ~ In ECancel es' -> run es' u = Some v -> alive v = true /\ cancelled v = false).
    { clear. induction es' as [|e es' IH]; intros u v C A N E; cbn in E; [injection E as <-; auto|].
      destruct (step e u) as [w|] eqn:S; [|discriminate].
      assert (cancelled w = false /\ alive w = true) as [CW AW].
      { destruct u as [p i b a c at_ d]. cbn in C, A. subst. destruct e; cbn in S;
          try (exfalso; apply N; now left);
          repeat match type of S with context [match ?x with _ => _ end] => destruct x; try discriminate end;
          try discriminate; injection S as <-; auto. }
      eapply IH; eauto. intros H. apply N. now right. }
    destruct (G es init s) as [A' _]; auto. congruence.
  - intros fs. revert s R. assert (G : forall fs s t, (forall e, In e fs -> internal e) -> run fs s = Some t -> List.length fs + cost t <= cost s).
    { clear. induction fs as [|e fs IH]; intros s t H E; cbn in E; [injection E as <-; cbn [List.length]; lia|].
      destruct (step e s) as [u|] eqn:S; [|discriminate]. apply internal_cost in S; [|apply H; now left].
      apply IH in E; [cbn [List.length]; lia|]. intros f HF. apply H. now right. }
    intros s R t H E. specialize (G fs s t H E). lia.
Qed.
(** In general a flush can complete except in one situation: it is sending, the
    channel is full and the receiver has gone. *)
Theorem C57_flush_completes_iff_partial :
  forall es s, run es init = Some s ->
  (can_finish s <-> ~ (inside s <> None /\ buf s <> None /\ alive s = false)).
Proof. intros es s R. apply finish_iff. apply (dead_cancelled es init s); [discriminate|assumption]. Qed.
(** Closing the workspace during a flush of several reports leads there: the
    flush, which holds the results lock, then never returns. *)
Theorem C57_closing_during_flush_blocks_refuted :
  exists es s, run es init = Some s /\ ~ done s /\ ~ can_finish s.
Proof.
  exists [EAttach; EFlush [1; 2; 3]; EEnter; ESend; ECancel; EQuit; EEnter]. eexists. split; [reflexivity|]. split.
  - intros [_ [=]].
  - rewrite finish_iff by reflexivity. intros H. apply H. repeat split; discriminate.
Qed.
Example C57_example : exists es s, run es init = Some s /\ ~ done s /\ ~ In ECancel es.
Proof. exists [EAttach; EFlush [1]]. eexists. split; [reflexivity|]. split; [intros [[=] _]|]. intros [[=]|[[=]|[]]]. Qed.

Print Assumptions C56_published_in_flush_order.
Print Assumptions C56_nothing_lost_while_open.
Print Assumptions C57_flush_completes_while_open_partial.
Print Assumptions C57_flush_completes_iff_partial.
Print Assumptions C57_closing_during_flush_blocks_refuted.
