(** Property theorems for waiting on document versions (C01-C03). *)
From Verif Require Import Base.
From Verif.Versions Require Import Model Spec Proofs.

(** C01: a wait that returned success did so because, at some moment between
    its call and now, the version published last for its document satisfied
    it; a wait that returned an error had its context cancelled. *)
Theorem C01_wait_success_is_truthful :
  forall h w, returned_ok (run h) w ->
  exists u v h1 h2, calls_wait h w u v h1 h2 /\ satisfied_since h1 h u v.
Proof. exact wait_sound. Qed.

Theorem C01_wait_error_is_cancellation :
  forall h w, returned_err (run h) w -> In (OCancel w) h.
Proof. exact err_means_cancelled. Qed.

(** C02: for a wait whose context is not done, being released (returned, or
    returning as soon as it is scheduled) is equivalent to a satisfying version
    having been published for its document since the call. *)
Theorem C02_wait_released_iff_published :
  forall h w u v h1 h2,
  calls_wait h w u v h1 h2 -> ~ returned_err (run h) w ->
  (released (run h) w <-> satisfied_since h1 h u v).
Proof. exact released_iff. Qed.

(** every pending wait is released by the very update that satisfies it *)
Theorem C02_pending_wait_released_by_update :
  forall h w u v h1 h2 mods,
  calls_wait h w u v h1 h2 -> ~ returned_err (run h) w ->
  (exists mv, In (u, mv) mods /\ satisfies (Some mv) v) ->
  released (run (h ++ [OUpdate mods])) w.
Proof. exact pending_released_by_update. Qed.

(** a later wait returns at once while the published version satisfies it *)
Theorem C02_later_wait_immediate :
  forall h w u v,
  (forall u' v', ~ In (OEnter w u' v') h) ->
  satisfies (latest (pubs h) u) v ->
  returned_ok (run (h ++ [OEnter w u v])) w.
Proof. exact later_wait_immediate. Qed.

(** publications of other documents release nobody *)
Theorem C02_no_foreign_release :
  forall h w u v h1 h2 mods,
  calls_wait h w u v h1 h2 ->
  (forall m, In m mods -> fst m <> u) ->
  ~ released (run h) w -> ~ returned_err (run h) w ->
  ~ released (run (h ++ [OUpdate mods])) w.
Proof. exact wait_no_foreign_release. Qed.

(** the version reported for a document is the one published last (0 if none) *)
Theorem C02_get_is_latest :
  forall h u,
  get (run h) u = match latest (pubs h) u with Some v => v | None => 0%Z end.
Proof. exact get_latest. Qed.

(** C03: no history makes the server close a channel twice. *)
Theorem C03_no_double_close : forall h, panicked (run h) = false.
Proof. exact no_double_close. Qed.

(** Non-vacuity: two waiters on version 3 share a channel, a third waits for 5
    on another document; publishing 4 releases exactly the first two. *)
Definition ex_h : list op :=
  [OEnter 0 7 3%Z; OEnter 1 7 3%Z; OEnter 2 8 5%Z; OUpdate [(7, 4%Z)]; ORecv 0].

Example ex_status :
  wait (run ex_h) 0 = WRet true /\ wait (run ex_h) 1 = WBlocked 0 /\
  wait (run ex_h) 2 = WBlocked 1 /\ closed (run ex_h) 0 = true /\
  closed (run ex_h) 1 = false.
Proof. vm_compute. auto. Qed.

Example ex_calls :
  calls_wait ex_h 1 7 3%Z [OEnter 0 7 3%Z]
             [OEnter 2 8 5%Z; OUpdate [(7, 4%Z)]; ORecv 0] /\
  ~ returned_err (run ex_h) 1.
Proof.
  split; [split; [reflexivity|]|vm_compute; discriminate].
  intros u v [H|[]]. discriminate.
Qed.

Example ex_foreign :
  calls_wait ex_h 2 8 5%Z [OEnter 0 7 3%Z; OEnter 1 7 3%Z]
             [OUpdate [(7, 4%Z)]; ORecv 0] /\
  ~ released (run ex_h) 2 /\ ~ returned_err (run ex_h) 2.
Proof.
  split; [split; [reflexivity|]|split; vm_compute; discriminate].
  intros u v [H|[H|[]]]; discriminate.
Qed.

Example ex_cancel : returned_err (run [OEnter 0 7 3%Z; OCancel 0]) 0.
Proof. vm_compute. reflexivity. Qed.

Print Assumptions C01_wait_success_is_truthful.
Print Assumptions C01_wait_error_is_cancellation.
Print Assumptions C02_wait_released_iff_published.
Print Assumptions C02_pending_wait_released_by_update.
Print Assumptions C02_later_wait_immediate.
Print Assumptions C02_no_foreign_release.
Print Assumptions C02_get_is_latest.
Print Assumptions C03_no_double_close.
