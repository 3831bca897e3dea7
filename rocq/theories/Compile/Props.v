(** Property theorems for the compilation result cache (C07, C08, C09, C51, C52). *)
From Verif Require Import Base.
From Verif.Compile Require Import Model Spec Proofs.

(** C07 *)
Theorem C07_results_consistent :
  forall h,
  NoDup (map epath (results (run h))) /\
  (forall p, partials (run h) p = None \/ unlinkeds (run h) p = None) /\
  (forall p, partials (run h) p <> None \/ unlinkeds (run h) p <> None -> forall r, find_result (run h) p <> Found r).
Proof. exact consistent. Qed.

(** C08, for well-behaved histories (Spec.v): each lookup returns a result
    exactly if the latest word on the file is of a kind it accepts, and then
    that very result. Missing from the full statement: see the refutations. *)
Theorem C08_lookups_current_partial :
  forall h p st, well_behaved h -> latest h p st ->
  (forall r, find_result (run h) p = Found r <-> st = IsLinked r) /\
  (forall r, find_result_or_partial (run h) p = Found r <-> st = IsLinked r \/ st = IsPartial r) /\
  (forall r, find_parse (run h) p = Found r <-> st = IsLinked r \/ st = IsPartial r \/ st = IsUnlinked r).
Proof. exact lookups. Qed.

Theorem C08_latest_exists : forall h p, exists st, latest h p st.
Proof. exact latest_total. Qed.

(** A file that linked before and now has a syntax error: looking it up panics. *)
Definition h_break : list op :=
  [Compile [1] (Some (mkReport [(1, 10, 0)] [] [])); Invalidate 1 true;
   Compile [1] (Some (mkReport [] [] [(1, 11, 0)]))].

Theorem C08_lookup_never_panics_refuted :
  exists h p, well_behaved h /\ latest h p (IsUnlinked 11) /\
    find_result (run h) p = Panicked /\ find_result_or_partial (run h) p = Panicked.
Proof.
  exists h_break, 1. split; [|split; [|split; reflexivity]].
  - cbn. split; [|split; [exact I|split; [|exact I]]].
    + split; [unfold wf_report; cbn; repeat constructor; intros []|]. intros p [<-|[]]. exists (IsLinked 10). econstructor. now left.
    + split; [unfold wf_report; cbn; repeat constructor; intros []|]. intros p [<-|[]]. exists (IsUnlinked 11). eapply says_unlinked. now left.
  - apply (l_say [_; _]). eapply says_unlinked. now left.
Qed.

(** A compilation that fails as a whole after it started on a partially linked
    file loses that file's result. *)
Theorem C08_failed_compilation_keeps_results_refuted :
  exists h p r, latest h p (IsPartial r) /\ find_result_or_partial (run h) p <> Found r.
Proof.
  exists [Compile [1] (Some (mkReport [] [(1, 10, 0)] [])); Compile [1] None], 1, 10. split.
  - apply (l_failed [_]). apply (l_say []). eapply says_partial. now left.
  - discriminate.
Qed.

Example C08_example :
  let h := [Compile [1;2] (Some (mkReport [(1, 10, 0)] [(2, 20, 0)] []))] in
  well_behaved h /\ latest h 1 (IsLinked 10) /\ latest h 2 (IsPartial 20).
Proof.
  cbn. split; [|split].
  - split; [|exact I]. split; [unfold wf_report; cbn; repeat constructor; cbn; intuition discriminate|].
    intros p [<-|[<-|[]]]; eexists; [eapply says_linked|eapply says_partial]; now left.
  - apply (l_say []). eapply says_linked. now left.
  - apply (l_say []). eapply says_partial. now left.
Qed.

(** C09: deleting a file removes it from the linked results and changes no
    lookup of any other file. *)
Theorem C09_delete_removes_only_its_result :
  forall h p,
  find_result (step (run h) (Invalidate p false)) p = NotFound /\
  forall q, q <> p ->
    find_result (step (run h) (Invalidate p false)) q = find_result (run h) q /\
    find_result_or_partial (step (run h) (Invalidate p false)) q = find_result_or_partial (run h) q /\
    find_parse (step (run h) (Invalidate p false)) q = find_parse (run h) q.
Proof. exact delete_frame. Qed.

(** The other lookups keep returning the partial or parse result of a deleted file. *)
Theorem C09_deleted_file_gone_from_all_lookups_refuted :
  exists h p r, latest (h ++ [Invalidate p false]) p Never /\
    find_result_or_partial (run (h ++ [Invalidate p false])) p = Found r /\
    find_parse (run (h ++ [Invalidate p false])) p = Found r.
Proof.
  exists [Compile [1] (Some (mkReport [] [(1, 10, 0)] []))], 1, 10. split; [apply l_deleted|]. split; reflexivity.
Qed.

Example C09_example :
  let h := [Compile [1] (Some (mkReport [(1, 10, 0); (2, 20, 0)] [] []))] in
  find_result (run h) 1 = Found 10 /\ find_result (run h) 2 = Found 20.
Proof. split; reflexivity. Qed.

(** C51: a workspace-wide search visits every linked file, and only current results ... *)
Theorem C51_search_visits_linked :
  forall h p r, find_result (run h) p = Found r -> In r (searched (run h)).
Proof. exact searched_linked. Qed.
Theorem C51_search_visits_only_current :
  forall h r, In r (searched (run h)) -> exists p, find_result_or_partial (run h) p = Found r.
Proof. exact searched_sound. Qed.
(** ... but not a partially linked file that never linked before. *)
Theorem C51_search_visits_partial_refuted :
  exists h p r, well_behaved h /\ find_result_or_partial (run h) p = Found r /\ ~ In r (searched (run h)).
Proof.
  exists [Compile [1] (Some (mkReport [] [(1, 10, 0)] []))], 1, 10. split; [|split; [reflexivity|intros []]].
  cbn. split; [|exact I]. split; [unfold wf_report; cbn; repeat constructor; intros []|].
  intros p [<-|[]]. exists (IsPartial 10). eapply says_partial. now left.
Qed.
Example C51_example :
  let h := [Compile [1] (Some (mkReport [(1, 10, 0)] [] [])); Compile [1] (Some (mkReport [(2, 20, 0)] [(1, 11, 0)] []))] in
  searched (run h) = [11; 20].
Proof. reflexivity. Qed.

(** C52: the pragma table known for a file is that of the latest report for it. *)
Theorem C52_pragmas_current :
  forall h, wf_history h -> forall p v, latest_prag h p v -> pragmas (run h) p = v.
Proof. exact pragma_latest. Qed.
Theorem C52_latest_exists : forall h p, exists v, latest_prag h p v.
Proof. exact latest_prag_total. Qed.
Example C52_example :
  wf_history h_break /\ latest_prag h_break 1 (Some 0).
Proof.
  split.
  - intros pre rp [[= <- <-]|[H|[[= <- <-]|[]]]]; try discriminate; unfold wf_report; cbn; repeat constructor; intros [].
  - apply (lp_say [_; _]). exists 11. right. right. now left.
Qed.

Print Assumptions C07_results_consistent.
Print Assumptions C08_lookups_current_partial.
Print Assumptions C08_latest_exists.
Print Assumptions C08_lookup_never_panics_refuted.
Print Assumptions C08_failed_compilation_keeps_results_refuted.
Print Assumptions C09_delete_removes_only_its_result.
Print Assumptions C09_deleted_file_gone_from_all_lookups_refuted.
Print Assumptions C51_search_visits_linked.
Print Assumptions C51_search_visits_only_current.
Print Assumptions C51_search_visits_partial_refuted.
Print Assumptions C52_pragmas_current.
Print Assumptions C52_latest_exists.
