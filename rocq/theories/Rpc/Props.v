(** Property theorems for the request queue (C20, C21). *)
From Verif Require Import Base.
From Verif.Rpc Require Import Model Spec Proofs.

(** C20 in full would be: in every possible history, a request starts only
    after every earlier non-streaming request was replied to. It is false: a
    streaming request in between lets later requests overtake. *)
Theorem C20_fifo_refuted :
  exists t i j, possible t /\ j < i /\ i < length (arrivals t) /\
    kind (arrivals t) j = false /\ ~ only_after t (Reply j) (Start i).
Proof.
  exists [Arrive false; Arrive true; Arrive false; Start 0; Start 2], 2, 0.
  split; [eexists; reflexivity|]. split; [lia|]. split; [cbn; lia|]. split; [reflexivity|].
  intros H. specialize (H [Arrive false; Arrive true; Arrive false; Start 0] [] eq_refl).
  cbn in H. intuition discriminate.
Qed.

(** What does hold, exactly: request i waits, under every schedule, for the
    reply to an earlier non-streaming request j iff no request between them is
    streaming. *)
Theorem C20_order_characterised_partial :
  forall ks i j, j < i -> i < length ks -> kind ks j = false ->
  ((forall t, possible t -> arrivals t = ks -> only_after t (Reply j) (Start i)) <->
   (forall k, j <= k < i -> kind ks k = false)).
Proof. exact order_iff. Qed.

(** In particular, without streaming requests handling is strictly FIFO. *)
Theorem C20_fifo_without_streaming_partial :
  forall t, possible t -> (forall k, kind (arrivals t) k = false) ->
  forall i j, j < i -> only_after t (Reply j) (Start i).
Proof.
  intros t Hp Hk i j Hlt. apply (start_after_run t (i - j)); auto. lia.
Qed.

(** A request directly after a non-streaming one always waits for its reply. *)
Theorem C20_next_waits_for_reply :
  forall t n, possible t -> kind (arrivals t) n = false -> only_after t (Reply n) (Start (S n)).
Proof.
  intros t n Hp Hk pre post E. destruct (start_prev t n Hp) as [H|H]; [|congruence|now apply (H pre post)].
  rewrite E. apply in_or_app. right. now left.
Qed.

Example C20_example :
  let t := [Arrive false; Arrive false; Start 0; Reply 0; Arrive true; Start 1; Reply 1; Start 2; Reply 2] in
  possible t /\ kind (arrivals t) 0 = false /\ In (Start 1) t.
Proof. cbn. split; [eexists; reflexivity|]. split; [reflexivity|tauto]. Qed.

(** C21: as long as some request that arrived is not replied to, some queued
    handler can start or some running handler can reply (and replying closes no
    channel twice) ... *)
Theorem C21_no_request_stuck :
  forall t, possible t -> ~ all_replied t -> exists e, is_arrive e = false /\ possible (t ++ [e]).
Proof. exact progress. Qed.

(** ... and this can happen at most twice per request, so after the last
    arrival every schedule in which handlers reply ends with all replied. *)
Theorem C21_bounded_work :
  forall t, possible t ->
  length (filter (fun e => negb (is_arrive e)) t) <= 2 * length (arrivals t).
Proof. intros t [l H]. apply count_bound in H. lia. Qed.

Theorem C21_no_double_close : forall t, run init t <> Panic.
Proof. exact no_panic. Qed.

Example C21_example :
  let t := [Arrive false; Arrive false; Start 0] in possible t /\ ~ all_replied t.
Proof.
  cbn. split; [eexists; reflexivity|]. intros H. destruct (H 0) as [_ H1]; [cbn; lia|].
  cbn in H1. intuition discriminate.
Qed.

Print Assumptions C20_fifo_refuted.
Print Assumptions C20_order_characterised_partial.
Print Assumptions C20_fifo_without_streaming_partial.
Print Assumptions C20_next_waits_for_reply.
Print Assumptions C21_no_request_stuck.
Print Assumptions C21_bounded_work.
Print Assumptions C21_no_double_close.
