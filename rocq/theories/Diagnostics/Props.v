(** Property theorems for diagnostics (C10-C14). *)
From Coq Require Import Ascii String.
From Verif Require Import Base Strs.
From Verif.Diagnostics Require Import Model Spec Proofs.
Open Scope list_scope.

(** C10: the stream is attached and stays attached, [p] keeps its URI. Once [p]
    has been flushed, and until it is touched again, the client's view of it is
    the server's; whatever else happens in between, in any interleaving. *)
Theorem C10_published_is_current :
  forall h1 h2 p ds,
  ~ In Detach (h1 ++ FlushOne p :: h2) -> ~ In (Unmap p) (h1 ++ FlushOne p :: h2) -> untouched p h2 ->
  current (run (Attach :: h1 ++ FlushOne p :: h2)) p ds ->
  view (sent (run (Attach :: h1 ++ FlushOne p :: h2))) p ds.
Proof. exact view_current. Qed.

(** After a whole flush (any order of the files), for every file. *)
Theorem C10_flush_publishes_everything :
  forall h order p ds,
  ~ In Detach h -> ~ In (Unmap p) h -> (forall q, known h q -> In q order) ->
  current (run (Attach :: h ++ flush_ops order)) p ds ->
  view (sent (run (Attach :: h ++ flush_ops order))) p ds.
Proof.
  intros h order p ds ND NU K C.
  assert (NF : forall o, In o (flush_ops order) -> exists q, o = FlushOne q)
    by (intros o HI; apply in_map_iff in HI as (q & <- & _); eauto).
  assert (ND' : ~ In Detach (h ++ flush_ops order)) by (rewrite in_app_iff; intros [X|X]; [auto|]; apply NF in X as [q X]; discriminate).
  assert (NU' : ~ In (Unmap p) (h ++ flush_ops order)) by (rewrite in_app_iff; intros [X|X]; [auto|]; apply NF in X as [q X]; discriminate).
  destruct (in_dec Nat.eq_dec p order) as [HI|HN].
  - apply in_split in HI as (a & b & ->). unfold flush_ops in *. rewrite map_app in *. cbn [map] in *. rewrite app_assoc in *.
    apply view_current; auto. intros o HI. apply in_map_iff in HI as (q & <- & _). intros [].
  - (* no list for p *)
    apply current_iff in C as ->.
    destruct (env_run (h ++ flush_ops order) (step init Attach) p ND' NU' eq_refl eq_refl) as (_ & _ & S).
    destruct S as [S|S]; [right; constructor| |exact S].
    exfalso. change (run_from (step init Attach) (h ++ flush_ops order)) with (run (Attach :: h ++ flush_ops order)) in S.
    assert (L : lists (run (Attach :: h ++ flush_ops order)) p = None).
    { apply lists_unknown. intros [X|X]; [discriminate|]. apply in_app_iff in X as [X|X]; [apply HN; now apply K|apply NF in X as [q X]; discriminate]. }
    unfold at_ in S. now rewrite L in S.
Qed.

(** Once the client no longer listens nothing more is published. *)
Theorem C10_nothing_published_after_detach :
  forall h1 h2, ~ In Attach h2 -> sent (run (h1 ++ Detach :: h2)) = sent (run h1).
Proof.
  intros h1 h2 N. unfold run, run_from. rewrite fold_left_app. cbn [fold_left]. generalize (fold_left step h1 init). intros s. cbn [step].
  change (sent s) with (sent (mkState (lists s) false (mapped s) (sent s))) at 2. assert (L : listening (mkState (lists s) false (mapped s) (sent s)) = false) by reflexivity.
  revert L. generalize (mkState (lists s) false (mapped s) (sent s)). clear s. induction h2 as [|o h2 IH]; intros s L; [reflexivity|].
  cbn [fold_left]. assert (Q : listening (step s o) = false /\ sent (step s o) = sent s).
  { destruct o; cbn [step]; unfold create, on_list, flush_one; try (destruct (lists s _); cbn; auto; fail); auto.
    - destruct (lists s p) as [l|]; [|auto]. destruct (dirty l); cbn; [|auto]. rewrite L. auto.
    - exfalso. apply N. now left. }
  destruct Q as [Q1 Q2]. rewrite IH; [exact Q2| |exact Q1]. intros H. apply N. now right.
Qed.
Example C10_nothing_published_after_detach_case :
  List.length (sent (run [Attach; Create 1; Add 1 (mkDiag (mkSpan 1 0 5) [] 7) 1; FlushOne 1; Detach; Add 1 (mkDiag (mkSpan 1 0 5) [] 7) 2; FlushOne 1])) = 1 /\
  List.length (sent (run [Attach; Create 1; Add 1 (mkDiag (mkSpan 1 0 5) [] 7) 1; FlushOne 1; Add 1 (mkDiag (mkSpan 1 0 5) [] 7) 2; FlushOne 1])) = 2.
Proof. vm_compute. auto. Qed.

(** A file that was not touched since its last flush is not published again. *)
Theorem C10_nothing_published_without_change :
  forall h1 h2 p, untouched p h2 ->
  sent (run (h1 ++ FlushOne p :: h2 ++ [FlushOne p])) = sent (run (h1 ++ FlushOne p :: h2)).
Proof. intros h1 h2 p U. now rewrite flush_silent. Qed.

(** The server's diagnostics of a file are those reported since it was last
    cleared, in order. *)
Theorem C10_current_since_clear :
  forall h1 p t h2 ds, known h1 p -> (forall t', ~ In (Clear p t') h2) ->
  (forall r t', In (DeleteRelated r t') h2 -> sfile r <> p) ->
  current (run (h1 ++ Clear p t :: h2)) p ds ->
  ds = flat_map (fun o => match o with Add q d _ => if q =? p then [d] else [] | _ => [] end) h2.
Proof.
  intros h1 p t h2 ds K NC NR C. apply current_iff in C as ->. rewrite run_app. cbn [run_from fold_left].
  fold (run_from (step (run h1) (Clear p t)) h2). rewrite adds_run; auto.
  - rewrite items_clear. cbn [app]. clear. induction h2 as [|o h IH]; [reflexivity|]. destruct o; cbn; auto.
    destruct (_ =? _); cbn; now rewrite IH.
  - apply (lists_kept [Clear p t]). now apply known_lists.
Qed.

Definition sp (f a b : nat) := mkSpan f a b.
Definition d1 := mkDiag (sp 1 0 5) [] 7.

(** A file is deleted: its URI is forgotten before its diagnostics are cleared
    and flushed (documents.go:62, compiler.go:27), so the client is never told. *)
Theorem C10_deleted_file_cleared_at_client_refuted :
  exists h p, In Attach (firstn 1 h) /\ ~ In Detach h /\
    current (run h) p [] /\ dirty (at_ (run h) p) = false /\ exists d ds, view (sent (run h)) p (d :: ds).
Proof.
  exists [Attach; Create 1; Add 1 d1 1; FlushOne 1; Unmap 1; Clear 1 2; FlushOne 1], 1.
  split; [now left|]. split; [cbn; intuition discriminate|]. split; [reflexivity|]. split; [reflexivity|].
  exists d1, []. apply (v_this []).
Qed.

Example C10_example :
  let h := [Create 1; Add 1 d1 1; Create 2; FlushOne 2; Add 2 d1 2] in
  ~ In Detach h /\ ~ In (Unmap 1) h /\ (forall q, known h q -> In q [2; 1]) /\
  current (run (Attach :: h ++ flush_ops [2; 1])) 1 [d1].
Proof.
  cbn. split; [intuition discriminate|]. split; [intuition discriminate|]. split; [|reflexivity].
  unfold known. cbn. intros q H. repeat (destruct H as [[= <-]|H]); auto; try discriminate; tauto.
Qed.

(** C11. A subscriber does not get diagnostics flushed before it attached, not
    even after another flush (server.go:95-105 compiles and flushes all files
    before it attaches the stream) ... *)
Theorem C11_existing_diagnostics_delivered_refuted :
  exists h order p ds, ~ In Detach h /\ (forall q, known h q -> In q order) /\
    current (run (h ++ Attach :: flush_ops order)) p ds /\ ~ view (sent (run (h ++ Attach :: flush_ops order))) p ds.
Proof.
  exists [Create 1; Add 1 d1 1; FlushOne 1], [1], 1, [d1].
  split; [cbn; intuition discriminate|]. split.
  { unfold known. cbn. intros q H. repeat (destruct H as [[= <-]|H]); auto; discriminate. }
  split; [reflexivity|]. intros V. assert (H := view_fun _ _ _ _ V (v_none 1)). discriminate.
Qed.

(** ... but it does get every file reported on or cleared after it attached. *)
Theorem C11_diagnostics_since_attach_partial :
  forall h0 h1 o h2 h3 p ds,
  known (h0 ++ h1) p -> reports p o ->
  ~ In Detach (h1 ++ o :: h2 ++ FlushOne p :: h3) ->
  ~ In (Unmap p) (h0 ++ h1 ++ o :: h2 ++ FlushOne p :: h3) ->
  untouched p h3 ->
  current (run (h0 ++ Attach :: h1 ++ o :: h2 ++ FlushOne p :: h3)) p ds ->
  view (sent (run (h0 ++ Attach :: h1 ++ o :: h2 ++ FlushOne p :: h3))) p ds.
Proof. exact view_since_attach. Qed.
Example C11_example :
  current (run ([Create 1; Add 1 d1 1; FlushOne 1] ++ Attach :: [] ++ Add 1 d1 2 :: [] ++ FlushOne 1 :: [])) 1 [d1; d1].
Proof. reflexivity. Qed.

(** C12 *)
Theorem C12_cleared_file_empty : forall s p ts, current (clear_path s p ts) p [].
Proof. exact clear_self. Qed.
Theorem C12_other_files_lose_only_related :
  forall s p ts q ds prev, q <> p -> current s p prev -> current s q ds ->
  exists ds', current (clear_path s p ts) q ds' /\
    without (fun d => names prev (drange d) /\ sfile (drange d) = q) ds ds'.
Proof. exact clear_other. Qed.
Theorem C12_unrelated_files_untouched :
  forall s p ts q prev, q <> p -> current s p prev -> (forall r, names prev r -> sfile r <> q) ->
  lists (clear_path s p ts) q = lists s q.
Proof. exact clear_frame. Qed.
Theorem C12_related_removed :
  forall s p ts q ds prev r ds', q <> p -> current s p prev -> current s q ds -> NoDup (map drange ds) ->
  names prev r -> sfile r = q -> current (clear_path s p ts) q ds' -> forall d, In d ds' -> drange d <> r.
Proof. exact clear_related. Qed.

Definition d_rel := mkDiag (sp 1 0 5) [sp 2 3 4] 8.
Definition d_oth := mkDiag (sp 2 3 4) [] 9.
Definition h_rel : list op := [Create 1; Create 2; Add 1 d_rel 1; Add 2 d_oth 2; Add 2 (mkDiag (sp 2 8 9) [] 3) 3].
Example C12_example :
  current (run h_rel) 1 [d_rel] /\ names [d_rel] (sp 2 3 4) /\ NoDup (map drange [d_oth; mkDiag (sp 2 8 9) [] 3]) /\
  current (clear_path (run h_rel) 1 (fun i => 10 + i)) 2 [mkDiag (sp 2 8 9) [] 3].
Proof.
  split; [reflexivity|]. split; [exists d_rel; cbn; auto|]. split; [|reflexivity].
  repeat constructor; cbn; intuition discriminate.
Qed.
(** With two diagnostics at the related range only the first one goes. *)
Theorem C12_all_related_removed_refuted :
  exists s p ts q prev r ds', q <> p /\ current s p prev /\ names prev r /\ sfile r = q /\
    current (clear_path s p ts) q ds' /\ exists d, In d ds' /\ drange d = r.
Proof.
  exists (run (h_rel ++ [Add 2 d_oth 4])), 1, (fun i => 10 + i), 2, [d_rel], (sp 2 3 4), [mkDiag (sp 2 8 9) [] 3; d_oth].
  split; [discriminate|]. split; [reflexivity|]. split; [exists d_rel; cbn; auto|]. split; [reflexivity|]. split; [reflexivity|].
  exists d_oth. cbn. auto.
Qed.

(** C13: given distinct clock readings, an "unchanged" answer is truthful, and
    an untouched file is answered "unchanged". *)
Theorem C13_unchanged_is_truthful :
  forall h1 h2 p ds id id',
  NoDup (times (h1 ++ h2)) ->
  get (run h1) p None = (Some ds, id) ->
  get (run (h1 ++ h2)) p (Some id) = (None, id') ->
  get (run (h1 ++ h2)) p None = (Some ds, id).
Proof. exact unchanged_truthful. Qed.
Theorem C13_untouched_is_unchanged :
  forall h1 h2 p ds id, known h1 p -> untouched p h2 ->
  get (run h1) p None = (Some ds, id) -> get (run (h1 ++ h2)) p (Some id) = (None, id).
Proof. intros h1 h2 p ds id K. apply unchanged_when_untouched. now apply known_lists. Qed.
Example C13_example :
  let h1 := [Create 1; Add 1 d1 1] in let h2 := [Create 2; Add 2 d1 2; FlushOne 1] in
  NoDup (times (h1 ++ h2)) /\ get (run h1) 1 None = (Some [d1], Some 1) /\ get (run (h1 ++ h2)) 1 (Some (Some 1)) = (None, Some 1).
Proof. cbn. split; [repeat constructor; cbn; intuition discriminate|split; reflexivity]. Qed.
(** Without it (a clock coarser than the time between two reports) it is not. *)
Theorem C13_coarse_clock_refuted :
  exists h1 h2 p ds id ds', get (run h1) p None = (Some ds, id) /\
    get (run (h1 ++ h2)) p (Some id) = (None, id) /\ get (run (h1 ++ h2)) p None = (Some ds', id) /\ ds <> ds'.
Proof.
  exists [Create 1; Add 1 d1 1], [Clear 1 1], 1, [d1], (Some 1), []. repeat split. discriminate.
Qed.

(** C14 *)
Theorem C14_elevated_iff :
  forall dbg cat sev,
  (elevate dbg cat sev = Error <-> sev = Error \/ (sev = Warning /\ cat <> [] /\ ~ suppressed dbg cat)) /\
  (elevate dbg cat sev <> Error -> elevate dbg cat sev = sev).
Proof.
  intros dbg cat sev. split; [apply elevate_spec|]. intros N. destruct (elevate_keeps dbg cat sev); congruence.
Qed.
Theorem C14_repeatable :
  forall dbg cat sev n, report_all cat sev (repeat dbg n) = repeat (elevate dbg cat sev) n.
Proof. intros. apply report_all_const. Qed.
Example C14_example :
  suppressed (Some (b_ "x Wnoerror=cat")) (b_ "cat") /\
  elevate (Some (b_ "x Wnoerror=cat")) (b_ "cat") Warning = Warning /\
  elevate (Some (b_ "Wnoerror=ca")) (b_ "cat") Warning = Error.
Proof.
  split; [|split; reflexivity]. exists (b_ "x Wnoerror=cat"). split; [reflexivity|left]. apply fields_spec. vm_compute. auto.
Qed.
(** Reporting a diagnostic once without the pragma fixes it as an error even
    when the pragma appears later (the severity is written back, line 81). *)
Theorem C14_follows_current_pragma_refuted :
  exists cat dbg, suppressed dbg cat /\ elevate dbg cat Warning = Warning /\
    report_all cat Warning [None; dbg] = [Error; Error].
Proof.
  exists (b_ "c"), (Some (b_ "Wnoerror=all")). split; [|split; reflexivity].
  exists (b_ "Wnoerror=all"). split; [reflexivity|right]. apply fields_spec. vm_compute. auto.
Qed.

Print Assumptions C10_published_is_current.
Print Assumptions C10_flush_publishes_everything.
Print Assumptions C10_nothing_published_without_change.
Print Assumptions C10_current_since_clear.
Print Assumptions C10_deleted_file_cleared_at_client_refuted.
Print Assumptions C11_existing_diagnostics_delivered_refuted.
Print Assumptions C11_diagnostics_since_attach_partial.
Print Assumptions C12_cleared_file_empty.
Print Assumptions C12_other_files_lose_only_related.
Print Assumptions C12_unrelated_files_untouched.
Print Assumptions C12_related_removed.
Print Assumptions C12_all_related_removed_refuted.
Print Assumptions C13_unchanged_is_truthful.
Print Assumptions C13_untouched_is_unchanged.
Print Assumptions C13_coarse_clock_refuted.
Print Assumptions C14_elevated_iff.
Print Assumptions C14_repeatable.
Print Assumptions C14_follows_current_pragma_refuted.
Print Assumptions C10_nothing_published_after_detach.
