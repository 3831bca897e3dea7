(** Property theorems for locking (C22, C23). *)
From Verif Require Import Base.
From Verif.Locks Require Import Model Spec Proofs.

(** C22 for requests that never lock the results while they hold the lock: any
    number of them together with any number of edits, under every schedule,
    never gets stuck, and finishes after a bounded number of steps. *)
Theorem C22_flat_requests_never_deadlock_partial :
  forall ps s n, (forall p, In p ps -> flat p) -> reach (init ps) s n ->
  ~ deadlocked s /\ n <= S (size ps).
Proof.
  intros ps s n F R. split; [|now apply (run_bounded ps s)].
  intros [ST NF]. destruct (inv_progress s) as (i & t & E); [eapply inv_reach; [apply inv_init; exact F|exact R]|exact NF|].
  now rewrite ST in E.
Qed.

(** While one of them holds the lock for writing, none of them is reading. *)
Theorem C22_exclusive : forall ps s n i q j r, (forall p, In p ps -> flat p) -> reach (init ps) s n ->
  nth_error (threads s) i = Some (Unlock :: q) -> nth_error (threads s) j = Some r ->
  (forall r', r <> RUnlock :: r') /\ (forall r', r = Unlock :: r' -> j = i).
Proof.
  intros ps s n i q j r F R E G. destruct (inv_reach _ _ _ (inv_init ps F) R) as (_ & _ & U1 & _).
  split.
  - intros r' ->. assert (X := alone_reach ps s n F R i (U1 i q E)). apply nth_error_split in G as (a & b & G & _).
    rewrite G, reading_app, reading_cons in X. cbn [is_read] in X. lia.
  - intros r' ->. apply U1 in E, G. congruence.
Qed.

(** edit, hover, definition, references, formatting, completion and code
    actions are of that kind *)
Theorem C22_flat_requests :
  forall n r, In r [Edit; Hover; Definition_; References; Formatting; Completion n; CodeAction] -> flat (program r).
Proof.
  intros n r H. cbn in H. repeat (destruct H as [<-|H]); try (repeat constructor); try easy.
  cbn. repeat apply f_read. rewrite <- (app_nil_r (times n rd)). apply times_flat, f_nil.
Qed.

(** Each of the others deadlocks with a single concurrent edit: the edit's
    pending lock blocks the request's second read lock, whose first blocks the edit. *)
Theorem C22_nested_requests_deadlock_refuted :
  forall n r, In r [CodeLens; DocumentSymbols; WorkspaceSymbols (S n); InlayHints n; DocumentLinks;
                    SemanticTokens; PrepareRename; GeneratedDefinition] ->
  exists s k, reach (init [program r; program Edit]) s k /\ deadlocked s.
Proof.
  intros n r H. cbn [In] in H.
  repeat (destruct H as [<-|H]; [eapply nested_deadlock; exists 0; reflexivity|]). easy.
Qed.

(** In the deployed server only commands overlap with edits (handler.go:61-65),
    so go-to-generated-definition is the one that gets there. *)
Theorem C22_generated_definition_deadlock_refuted :
  exists s k, reach (init [program GeneratedDefinition; program Edit]) s k /\ deadlocked s.
Proof. apply (C22_nested_requests_deadlock_refuted 0). cbn. tauto. Qed.

(** Without edits there is no deadlock, and the lock is free once all is done. *)
Theorem C22_reads : forall r, r <> Edit -> balanced (program r).
Proof.
  intros [] H; try congruence; cbn [program]; unfold type_at_location;
    repeat first [apply balanced_rd | apply balanced_under | apply balanced_times | apply balanced_app].
Qed.
Theorem C22_only_reads : forall ps s n, (forall p, In p ps -> balanced p) -> reach (init ps) s n ->
  ~ deadlocked s /\ (finished s -> readers s = 0 /\ writer s = None).
Proof.
  intros ps s n B R. destruct (reading_only_reach ps s n B R) as (W & C & E). split.
  - intros [St Nf]. apply Nf. intros p Hp. destruct p as [|a p]; [reflexivity|]. exfalso. apply In_nth_error in Hp as Hi. destruct Hi as [i Hi].
    pose proof (St i) as Si. unfold step in Si. rewrite Hi in Si. destruct (C _ Hp) as [[-> | ->] _]; [rewrite W in Si|]; discriminate.
  - intro F. split; [|exact W]. assert (Z : forall f, f [] = 0 -> total f (threads s) = 0).
    { intros f Hf. clear - F Hf. unfold finished in F. induction (threads s) as [|p ps IH]; [reflexivity|]. cbn [total fold_right].
      rewrite (F p (or_introl eq_refl)), Hf. apply IH. intros q Hq. apply F. now right. }
    rewrite (Z locks), (Z unlocks) in E by reflexivity. lia.
Qed.
Example C22_reads_case : exists s, reach (init [program DocumentLinks; program Hover]) s 12 /\ finished s.
Proof.
  Ltac go n := match n with
               | 0 => apply r_refl
               | S ?m => let i := eval compute in (if m <? 4 then 0 else 1) in eapply (r_step _ _ _ i); [go m|reflexivity]
               end.
  eexists. split; [go 12|]. intros p [<-|[<-|[]]]; reflexivity.
Qed.

Example C22_example :
  reach (init [program Hover; program Edit]) (mkState [[RUnlock; RLock; RUnlock; RLock; RUnlock; RLock; RUnlock]; [Lock; Unlock]] 1 (Some (1, false))) 2.
Proof. eapply (r_step _ _ _ 1); [eapply (r_step _ _ _ 0); [apply r_refl|reflexivity]|reflexivity]. Qed.

(** C23: the command succeeds iff every workspace has a Go language driver. *)
Theorem C23_refresh_succeeds_iff : forall drivers, snd (refresh_modules drivers) = true <-> (forall d, In d drivers -> d = true).
Proof.
  intros drivers. unfold refresh_modules. induction drivers as [|[] r IH]; cbn.
  - split; [intros _ d []|reflexivity].
  - rewrite IH. split; [intros H d [<-|HI]; auto|intros H d HI; apply H; auto].
  - split; [discriminate|]. intros H. apply (H false). now left.
Qed.
(** The lock calls of a command are balanced iff every workspace has a Go
    language driver ... *)
Theorem C23_refresh_releases_iff_partial :
  forall drivers, fst (refresh_modules drivers) = [Lock; Unlock] <-> (forall d, In d drivers -> d = true).
Proof.
  intros drivers. unfold refresh_modules. assert (G : refresh_loop drivers = true <-> forall d, In d drivers -> d = true).
  { induction drivers as [|[] r IH]; cbn.
    - split; [intros _ d []|reflexivity].
    - rewrite IH. split; [intros H d [<-|HI]; auto|intros H d HI; apply H; auto].
    - split; [discriminate|]. intros H. apply (H false). now left. }
  rewrite <- G. destruct (refresh_loop drivers); cbn; split; congruence.
Qed.
(** ... and otherwise the lock stays held: the next request never proceeds. *)
Theorem C23_commands_release_lock_refuted :
  exists drivers s n, reach (init [fst (refresh_modules drivers); cache_lookup]) s n /\
    nth_error (threads s) 0 = Some [] /\ deadlocked s.
Proof.
  exists [true; false], (mkState [[]; cache_lookup] 0 (Some (0, true))), 2. split; [|split; [reflexivity|]].
  - eapply (r_step _ _ _ 0); [eapply (r_step _ _ _ 0); [apply r_refl|reflexivity]|reflexivity].
  - split.
    + intros [|[|i]]; [reflexivity|reflexivity|]. unfold step. cbn [threads nth_error]. destruct i; reflexivity.
    + intros F. specialize (F cache_lookup (or_intror (or_introl eq_refl))). discriminate.
Qed.
(** re-indexing and cache lookups alone never block each other *)
Theorem C23_other_commands_release_lock :
  forall ps s n, (forall p, In p ps -> p = reindex \/ p = cache_lookup) -> reach (init ps) s n -> ~ deadlocked s.
Proof.
  intros ps s n H R. apply (C22_flat_requests_never_deadlock_partial ps s n); [|exact R].
  intros p HI. destruct (H p HI) as [-> | ->]; repeat constructor.
Qed.
Example C23_example : fst (refresh_modules [true; true]) = [Lock; Unlock].
Proof. reflexivity. Qed.

Print Assumptions C22_exclusive.
Print Assumptions C22_flat_requests_never_deadlock_partial.
Print Assumptions C22_flat_requests.
Print Assumptions C22_reads.
Print Assumptions C22_only_reads.
Print Assumptions C22_nested_requests_deadlock_refuted.
Print Assumptions C22_generated_definition_deadlock_refuted.
Print Assumptions C23_refresh_releases_iff_partial.
Print Assumptions C23_commands_release_lock_refuted.
Print Assumptions C23_other_commands_release_lock.
Print Assumptions C23_refresh_succeeds_iff.
