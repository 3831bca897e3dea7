(** Property theorems for code actions (C24, C25, C26). *)
From Coq Require Import Ascii String.
From Verif Require Import Base Strs.
From Verif.CodeActions Require Import Model Spec Proofs.
Open Scope list_scope.

(** C24: a kind is wanted iff it is a supported kind at or below a requested
    one, or an explicit kind requested by name; the request never fails for the
    kinds asked. *)
Theorem C24_wanted_kinds :
  forall only, exists want, requested only = Some want /\ forall k, kget want k = true <-> wanted only k.
Proof. exact requested_spec. Qed.

(** Every action returned is of a wanted kind, whatever the diagnostics sent
    along, the suggestions and the analyzers. *)
Theorem C24_returned_kinds_wanted :
  forall sg an st only ds acts a,
  get_code_actions sg an st only ds = Some acts -> In a acts -> wanted only (kind a).
Proof.
  intros sg an st only ds acts a E HI. destruct (requested_spec only) as (want & RQ & W). unfold get_code_actions in E.
  rewrite RQ in E. destruct (collect sg want ds) as [l|] eqn:C; [|discriminate].
  apply W.
  assert (G : forall l', (forall x, In x l' -> kget want (kind x) = true) ->
              In a (if kget want organize then aggregate l' else l') -> kget want (kind a) = true).
  { intros l' HK HA. destruct (kget want organize) eqn:O; [|auto]. unfold aggregate in HA. rewrite aggregate_loop_flat in HA.
    cbn [app] in HA. destruct (snd _) as [|c cs].
    - apply filter_In in HA as [HA _]. auto.
    - apply in_app_or in HA as [HA|[<-|[]]]; [apply filter_In in HA as [HA _]; auto|exact O]. }
  set (rf := (if (kget want extract_kind || kget want inline_kind || kget want rewrite_kind)%bool then st else None)) in *.
  destruct rf as [[]|]; try discriminate; injection E as <-; eapply G; try exact HI; intros x HX;
    apply in_app_or in HX as [HX|HX]; try (eapply collect_kinds; eassumption); try destruct HX.
  eapply refactor_kinds; eassumption.
Qed.
(** hierarchy, not mere string prefixes *)
Example C24_example :
  wanted [b_ "refactor"] inline_kind /\ ~ wanted [b_ "refact"] inline_kind /\
  get_code_actions (fun _ => []) (fun _ => [(7, [])]) (Some true) [b_ "refactor.inline"; b_ "source"]
    [NoData; Data [mkRaw quickfix 1 (Some 0) []; mkRaw organize 2 (Some 0) [mkEdit 3 (b_ "")]] None]
  = Some [mkAction inline_kind 7 []; mkAction organize 0 [(0, [mkEdit 3 []])]].
Proof.
  split; [left; split; [vm_compute; tauto|exists (b_ "refactor"); split; [now left|exists [b_ "inline"]; reflexivity]]|].
  split; [|reflexivity].
  intros [[_ (o & [<-|[]] & [r H])]|[_ H]]; vm_compute in H; discriminate.
Qed.

(** C25: what is proved of the merged action. Actions of other kinds are kept
    unchanged and in order; every edit of the result comes from an
    organize-imports action on the same document; all removals are kept. *)
Theorem C25_others_kept_and_removals_kept :
  forall acts, exists c,
    filter (fun a => negb (beq (kind a) organize)) acts =
      filter (fun a => negb (beq (kind a) organize)) (aggregate acts) /\
    (aggregate acts = filter (fun a => negb (beq (kind a) organize)) acts /\ c = [] \/
     exists t, aggregate acts = filter (fun a => negb (beq (kind a) organize)) acts ++ [mkAction organize t c]) /\
    (forall u e, In e (cget c u) -> In e (organize_edits u acts)) /\
    (forall u, deletions (cget c u) = deletions (organize_edits u acts)).
Proof.
  intros acts. exists (merged acts). fold (others acts). destruct (aggregate_cases acts) as [[A C]|[t A]].
  - split; [rewrite A; unfold others; now rewrite filter_idem|]. split; [auto|]. split; [apply merged_sound|apply merged_deletions].
  - split; [rewrite A; unfold others; rewrite filter_app, filter_idem; cbn [filter kind]; rewrite beq_refl; cbn; now rewrite app_nil_r|].
    split; [eauto|]. split; [apply merged_sound|apply merged_deletions].
Qed.
(** If all organize-imports actions concern one document, the insertions of the
    result are the first of each text, in order: every text that was to be
    inserted is inserted exactly once. *)
Theorem C25_each_text_once_partial :
  forall acts u, single_document u acts -> exists c,
    (aggregate acts = filter (fun a => negb (beq (kind a) organize)) acts /\ c = [] \/
     exists t, aggregate acts = filter (fun a => negb (beq (kind a) organize)) acts ++ [mkAction organize t c]) /\
    insertions (cget c u) = first_texts [] (insertions (organize_edits u acts)) /\
    (forall e, In e (organize_edits u acts) -> exists e', In e' (cget c u) /\ etext e' = etext e).
Proof.
  intros acts u SD. exists (merged acts). set (c := merged acts). fold (others acts).
  assert (ALL : forall p, In p (flat acts) -> fst p = u).
  { intros [v e] H. unfold flat in H. apply in_flat_map in H as (a & HA & H). destruct (beq (kind a) organize) eqn:K; [|destruct H].
    apply beq_eq in K. apply in_flat_map in H as (x & HX & H). apply in_map_iff in H as (e' & [= <- <-] & _). cbn.
    eapply SD; eauto. }
  assert (FI : insertions (cget c u) = first_texts [] (insertions (organize_edits u acts))).
  { unfold c, merged. rewrite (add1_first u) by exact ALL. cbn [cget insertions filter app]. rewrite <- flat_doc. do 2 f_equal.
    symmetry. clear -ALL. f_equal. induction (flat acts) as [|p l IH]; [reflexivity|]. cbn. rewrite (ALL p) by now left. rewrite Nat.eqb_refl. f_equal. apply IH.
    intros q HQ. apply ALL. now right. }
  split; [|split; [exact FI|]].
  - apply aggregate_cases.
  - intros e HE. destruct (etext e) as [|x t] eqn:T.
    + exists e. split; [|exact T]. assert (D : In e (deletions (cget c u))).
      { unfold c. rewrite merged_deletions. apply filter_In. now rewrite T. }
      apply filter_In in D. tauto.
    + assert (HI : In e (insertions (organize_edits u acts))) by (apply filter_In; now rewrite T).
      destruct (first_texts_in [] _ _ HI) as [H|(e' & H1 & H2)]; [discriminate|].
      exists e'. rewrite <- T. split; [|exact H2]. rewrite <- FI in H1. apply filter_In in H1. tauto.
Qed.
(** With two documents an edit is lost: the same text is inserted in one only. *)
Theorem C25_every_edit_kept_refuted :
  exists acts u e c t, In e (organize_edits u acts) /\ aggregate acts = [mkAction organize t c] /\
    forall e', In e' (cget c u) -> etext e' <> etext e.
Proof.
  exists [mkAction organize 1 [(0, [mkEdit 5 (b_ "import x")])]; mkAction organize 2 [(1, [mkEdit 6 (b_ "import x")])]],
    1, (mkEdit 6 (b_ "import x")). eexists. eexists. split; [vm_compute; auto|]. split; [reflexivity|]. intros e' [].
Qed.
Example C25_example :
  aggregate [mkAction organize 1 [(0, [mkEdit 5 (b_ "import x"); mkEdit 9 []])]; mkAction quickfix 2 [];
             mkAction organize 3 [(0, [mkEdit 6 (b_ "import x"); mkEdit 8 []])]]
  = [mkAction quickfix 2 []; mkAction organize 0 [(0, [mkEdit 5 (b_ "import x"); mkEdit 9 []; mkEdit 8 []])]].
Proof. reflexivity. Qed.

(** C26: in every interleaving, a deferred action's computation runs at most once ... *)
Theorem C26_computed_at_most_once :
  forall es q id, qrun es qinit = Some q -> count id (executed q) <= 1.
Proof. intros es q id R. apply (qinv_run _ _ _ qinv_init R). Qed.
(** ... and a resolve request computes iff the action is available (stored,
    not yet resolved, not removed by its deadline); otherwise it fails and computes nothing. *)
Theorem C26_resolve_iff_available :
  forall es q id, qrun es qinit = Some q ->
  exists q', qrun (es ++ [QResolve (Some id)]) qinit = Some q' /\
    if available id es then executed q' = id :: executed q /\ failed q' = failed q
    else executed q' = executed q /\ failed q' = S (failed q).
Proof.
  intros es q id R. rewrite qrun_app, R. cbn [qrun].
  assert (A := available_stored es qinit q id R). cbn in A. fold (available id es) in A. rewrite <- A.
  destruct q as [n st t p ex f]. cbn [qstep stored]. destruct (mem_id id st); eexists; split; reflexivity || (split; reflexivity).
Qed.
(** A request without the id of an action fails and computes nothing. *)
Theorem C26_malformed : forall es q, qrun es qinit = Some q ->
  exists q', qrun (es ++ [QResolve None]) qinit = Some q' /\ executed q' = executed q /\ failed q' = S (failed q) /\ stored q' = stored q.
Proof. intros es q R. rewrite qrun_app, R. destruct q as [n st t p ex f]. cbn [qrun qstep]. eexists. repeat split. Qed.
(** Once stored, an action that has been resolved or removed never comes back. *)
Theorem C26_never_after_removal_partial :
  forall es q es' q' id, qrun es qinit = Some q -> In (QStore id) es -> available id es = false ->
  qrun es' q = Some q' -> count id (executed q') = count id (executed q).
Proof.
  intros es q es' q' id R ST AV R'. destruct (stored_settled _ _ _ R ST) as [NP LT].
  apply (gone_run id es' q q'); [|exact R']. split; [|now split].
  rewrite <- mem_id_In. rewrite (available_stored es qinit q id R). cbn. fold (available id es). congruence.
Qed.
(** While storing is not overtaken by the deadline, every stored action has a
    timer that will remove it. *)
Theorem C26_no_leak_partial :
  forall es q id, qrun es qinit = Some q -> prompt es -> available id es = true ->
  timers q id = Some Running \/ timers q id = Some Expired.
Proof.
  intros es q id R P AV. apply (tinv_run es q R P). apply mem_id_In.
  rewrite (available_stored es qinit q id R). exact AV.
Qed.
(** If the deadline passes between setting the timer and storing, the action
    stays for ever and can be computed after its deadline. *)
Theorem C26_no_leak_refuted :
  exists es q, qrun es qinit = Some q /\ timers q 0 = Some Over /\
    (forall es' q', qrun es' q = Some q' -> ~ In (QResolve (Some 0)) es' -> In 0 (stored q')) /\
    (exists q', qrun [QResolve (Some 0)] q = Some q' /\ executed q' = [0]).
Proof.
  exists [QPrepare; QExpire 0; QDelete 0; QStore 0]. eexists. split; [reflexivity|]. split; [reflexivity|]. split; [|eexists; split; reflexivity].
  set (q0 := mkQueue _ _ _ _ _ _).
  assert (G : forall es' q q', In 0 (stored q) -> timers q 0 = Some Over -> 0 < next q -> qrun es' q = Some q' -> ~ In (QResolve (Some 0)) es' -> In 0 (stored q')).
  { clear. induction es' as [|e es' IH]; intros q q' HS HT HN E N; cbn in E; [now injection E as <-|].
    destruct (qstep e q) as [q1|] eqn:S; [|discriminate].
    assert (N' : ~ In (QResolve (Some 0)) es') by (intros H; apply N; now right).
    assert (NE : e <> QResolve (Some 0)) by (intros ->; apply N; now left).
    assert (K : In 0 (stored q1) /\ timers q1 0 = Some Over /\ 0 < next q1).
    { destruct q as [n st t p ex f]. cbn in HS, HT, HN. destruct e as [|i|i|i|[i|]]; cbn in S.
      - injection S as <-. cbn. split; [exact HS|]. split; [|lia]. rewrite upd_other; [auto|lia].
      - destruct (mem_id i p); [|discriminate]. injection S as <-. cbn. auto.
      - destruct (t i) as [[]|] eqn:T; try discriminate. injection S as <-. cbn. repeat split; auto. rewrite upd_other; [auto|congruence].
      - destruct (t i) as [[]|] eqn:T; try discriminate. injection S as <-. cbn. repeat split; auto.
        + apply remove_id_In. split; [exact HS|]. congruence.
        + rewrite upd_other; [auto|congruence].
      - assert (0 <> i) by congruence. destruct (mem_id i st); injection S as <-; cbn; auto. repeat split; auto.
        + apply remove_id_In. split; auto.
        + destruct (t i) as [[]|]; auto. rewrite upd_other; auto.
      - injection S as <-. cbn. auto. }
    destruct K as (K1 & K2 & K3). eapply IH; eauto. }
  intros es' q' E N. apply (G es' q0 q'); auto; cbn; auto.
Qed.
Example C26_example :
  exists q, qrun [QPrepare; QStore 0; QPrepare; QStore 1; QResolve (Some 0); QExpire 1; QResolve (Some 0); QDelete 1; QResolve (Some 1)] qinit = Some q
    /\ executed q = [0] /\ failed q = 2.
Proof. eexists. split; [reflexivity|]. split; reflexivity. Qed.

Print Assumptions C24_wanted_kinds.
Print Assumptions C24_returned_kinds_wanted.
Print Assumptions C25_others_kept_and_removals_kept.
Print Assumptions C25_each_text_once_partial.
Print Assumptions C25_every_edit_kept_refuted.
Print Assumptions C26_computed_at_most_once.
Print Assumptions C26_resolve_iff_available.
Print Assumptions C26_malformed.
Print Assumptions C26_never_after_removal_partial.
Print Assumptions C26_no_leak_partial.
Print Assumptions C26_no_leak_refuted.

Example C26_prompt_example : prompt [QPrepare; QStore 0; QExpire 0; QDelete 0] /\
  available 0 [QPrepare; QStore 0; QExpire 0] = true /\ available 0 [QPrepare; QStore 0; QExpire 0; QDelete 0] = false.
Proof.
  split; [|split; reflexivity]. intros a b id H.
  destruct a as [|x1 [|x2 [|x3 [|x4 a]]]]; cbn in H; try discriminate.
  - injection H as <- <- <- <-. cbn. auto.
  - destruct a; discriminate.
Qed.
