From Coq Require Import ZArith List Bool Lia.
From Verif Require Import Base.
From Verif.Versions Require Import Model.
From Verif.Documents Require Import Model Spec Proofs.
From Verif.Events Require Import Model Spec Proofs.
Import ListNotations.

(** ** C128: a workspace is told what happened to its files *)
(** If a notification is not refused, each workspace is told once, namely exactly the events of its files in
    their order (clients send file URIs only, as registered; only DidChangeWatchedFiles checks it). *)
Theorem C128_told : forall is_file cache_for n g, dispatch is_file cache_for n = Some g ->
  (match n with Watched _ => True | _ => forall e, In e (events n) -> is_file (fst e) = true end) ->
  NoDup (map fst g) /\ forall c, map told (delivered c g) = filter (concerns is_file cache_for c) (events n).
Proof.
  intros is_file cache_for n g H F. assert (N : NoDup (map (@fst cache (list modification)) [])) by constructor. destruct n as [l|us|us|l]; cbn [dispatch] in H.
  - injection H as <-. exact (watched_delivered is_file cache_for l [] N).
  - apply (all_delivered is_file cache_for ACreate us) in H; auto. intros u Hu. apply (F (u, ACreate)). cbn. apply in_map_iff. eauto.
  - apply (all_delivered is_file cache_for ADelete us) in H; auto. intros u Hu. apply (F (u, ADelete)). cbn. apply in_map_iff. eauto.
  - apply (renamed_delivered is_file cache_for l) in H; auto. intros o n Hin. split; [apply (F (o, ADelete))|apply (F (n, ACreate))]; cbn; apply in_flat_map; exists (o, n); (split; [exact Hin|]); [now left|right; now left].
Qed.
(** and they are told of as changes on the disk: without a version and a language. *)
Theorem C128_on_disk : forall is_file cache_for n g c m, dispatch is_file cache_for n = Some g -> In m (delivered c g) -> m_version m = (-1)%Z /\ m_proto m = false.
Proof.
  intros is_file cache_for n g c m H. assert (N : forall c m, In m (delivered c ([] : groups)) -> m_version m = (-1)%Z /\ m_proto m = false) by easy.
  revert c m. destruct n as [l|us|us|l]; cbn [dispatch] in H.
  - injection H as <-. exact (watched_disk is_file cache_for l [] N).
  - exact (all_disk cache_for ACreate us [] g N H).
  - exact (all_disk cache_for ADelete us [] g N H).
  - exact (renamed_disk cache_for l [] g N H).
Qed.
(** Changes of watched files are never refused; the others exactly if some file is in no workspace. *)
Theorem C128_refused_partial : forall is_file cache_for n, (exists g, dispatch is_file cache_for n = Some g) <->
  match n with Watched _ => True | _ => forall e, In e (events n) -> cache_for (fst e) <> None end.
Proof.
  intros is_file cache_for n. destruct n as [l|us|us|l]; cbn [dispatch events].
  - split; eauto.
  - rewrite all_some. split; [intros H e He; apply in_map_iff in He as (u & <- & Hu); now apply H|intros H u Hu; apply (H (u, ACreate)); apply in_map_iff; eauto].
  - rewrite all_some. split; [intros H e He; apply in_map_iff in He as (u & <- & Hu); now apply H|intros H u Hu; apply (H (u, ADelete)); apply in_map_iff; eauto].
  - rewrite renamed_some. split.
    + intros H e He. apply in_flat_map in He as ([o n] & Hin & He). destruct (H o n Hin) as [H1 H2]. destruct He as [<-|[<-|[]]]; assumption.
    + intros H o n Hin. split; [apply (H (o, ADelete))|apply (H (n, ACreate))]; apply in_flat_map; exists (o, n); (split; [exact Hin|]); [now left|right; now left].
Qed.
Definition two (u : uri) : option cache := if Nat.ltb u 10 then Some 0 else if Nat.ltb u 20 then Some 1 else None.
Example C128_case : dispatch (fun _ => true) two (DidRename [(1, 11); (2, 3)]) = Some [(0, [disk 1 ADelete; disk 2 ADelete; disk 3 ACreate]); (1, [disk 11 ACreate])] /\
  dispatch (fun _ => true) two (Watched [(1, Changed); (30, Created); (11, Deleted)]) = Some [(0, [disk 1 AChange]); (1, [disk 11 ADelete])].
Proof. split; reflexivity. Qed.
(** So a file outside keeps the server from hearing of the others, *)
Theorem C128_created_refuted : exists cache_for us u c, In u us /\ cache_for u = Some c /\ dispatch (fun _ => true) cache_for (DidCreate us) = None.
Proof. exists two, [1; 30], 1, 0. split; [now left|]. split; reflexivity. Qed.
(** and a file moved into the workspace or out of it is not noticed. *)
Theorem C128_moved_refuted : exists cache_for o n, cache_for o = None /\ (exists c, cache_for n = Some c) /\
  dispatch (fun _ => true) cache_for (DidRename [(o, n)]) = None /\ dispatch (fun _ => true) cache_for (DidRename [(n, o)]) = None.
Proof. exists two, 30, 1. split; [reflexivity|]. split; [now exists 0|]. split; reflexivity. Qed.

(** ** C129: no notification about files stops the server *)
(** Files that can be opened may be created, all are compiled; *)
Theorem C129_created_partial : forall w us, (forall u, In u us -> on_create w u <> None) ->
  exists o, modify w (map (fun u => disk u ACreate) us) = Some o /\ o_applied o = map (fun u => disk u ACreate) us /\
    forall u p, In u us -> on_create w u = Some p -> In p (o_recompiled o).
Proof.
  intros w us C. set (mods := map _ us). unfold modify. set (e := mkEnv _ _ _ _).
  assert (A : forall u, In u us -> path_after e u = on_create w u) by (intros u Hu; apply creates_end; assumption).
  assert (R : forall m, In m mods -> resolvable e m = true). { intros m Hm. apply in_map_iff in Hm as (u & <- & Hu). cbn [resolvable disk m_action m_uri m_proto]. rewrite (A u Hu). specialize (C u Hu). destruct (on_create w u); [reflexivity|congruence]. }
  assert (Z : unresolvable_count e mods = 0). { unfold unresolvable_count. clearbody e. clear -R. induction mods as [|m l IH]; [reflexivity|]. cbn. rewrite (R m (or_introl eq_refl)). cbn. apply IH. intros x Hx. apply R. now right. }
  destruct (did_modify_at_most_one e mods) as (o & E & Ea & _); [lia|]. exists o. split; [exact E|]. split; [rewrite Ea; now apply filter_all|].
  intros u p Hu Hp. unfold did_modify in E. destruct (scan e 0 mods) as [del rec] eqn:Es. destruct (delete_all mods del) as [l'|]; [|discriminate]. injection E as <-. cbn [o_recompiled]. apply in_app_iff. right.
  assert (K : forall l i, incl l us -> In u l -> In p (snd (scan e i (map (fun u => disk u ACreate) l)))).
  { induction l as [|v l IH]; intros i Hl H0; [contradiction|]; destruct H0 as [->|Hin]; cbn [map scan].
    - destruct (scan e (S i) (map (fun u => disk u ACreate) l)) as [d r] eqn:E1. cbn [skipped disk m_action m_uri action_eqb andb]. rewrite (A u Hu), Hp. now left.
    - specialize (IH (S i) (fun x Hx => Hl x (or_intror Hx)) Hin). destruct (scan e (S i) (map (fun u => disk u ACreate) l)) as [d r] eqn:E1. cbn [skipped disk m_action m_uri action_eqb andb]. cbn [snd] in IH. destruct (path_after e v); [now right|exact IH]. }
  specialize (K us 0 (incl_refl _) Hu). fold mods in K. now rewrite Es in K.
Qed.
(** one file may be deleted, *)
Theorem C129_deleted_partial : forall w u p, known w u = Some p -> exists o, modify w [disk u ADelete] = Some o /\ o_recompiled o = [p].
Proof. intros w u p K. unfold modify, did_modify, update. cbn. rewrite K, set_same. cbn. eexists. split; reflexivity. Qed.
(** or renamed. *)
Theorem C129_renamed_partial : forall w u v p q, u <> v -> known w u = Some p -> on_create w v = Some q ->
  exists o, modify w [disk u ADelete; disk v ACreate] = Some o /\ o_recompiled o = [p; q] /\ o_applied o = [disk v ACreate].
Proof.
  intros w u v p q N K C. unfold modify, did_modify, update. cbn. rewrite K, C, set_same, set_other, set_same by exact N. cbn. eexists. split; [reflexivity|]. split; reflexivity.
Qed.
(** Two or more files deleted at a time stop the server, whatever it knows of them, *)
Theorem C129_deleted_refuted : forall w us, 2 <= length us -> modify w (map (fun u => disk u ADelete) us) = None.
Proof. exact many_deletes. Qed.
(** and so do three or more files renamed at a time; *)
Theorem C129_renamed_refuted : forall w l, apart l -> (forall o n, In (o, n) l -> on_create w n <> None) -> 3 <= length l ->
  modify w (flat_map (fun '(o, n) => [disk o ADelete; disk n ACreate]) l) = None.
Proof. exact many_renames. Qed.
Definition plain_world : world := mkWorld (fun u => Some u) (fun u => Some u) (fun _ => None) (fun _ => false) (fun _ => 0%Z).
Example C129_case : apart [(1, 11); (2, 12); (3, 13)] /\ modify plain_world [disk 1 ADelete; disk 11 ACreate; disk 2 ADelete; disk 12 ACreate; disk 3 ADelete; disk 13 ACreate] = None /\
  dispatch (fun _ => true) two (DidDelete [1; 2]) = Some [(0, map (fun u => disk u ADelete) [1; 2])] /\
  on_create plain_world 4 = Some 4 /\ known plain_world 4 = Some 4.
Proof. split; [|repeat split; reflexivity]. unfold apart. cbn. repeat constructor; cbn; lia. Qed.
(** with two, the creation of the second one is dropped and the deletion applied instead. *)
Theorem C129_two_renamed_refuted : forall w a a' c c', NoDup [a; c; a'; c'] -> on_create w a' <> None -> on_create w c' <> None ->
  exists o, modify w [disk a ADelete; disk a' ACreate; disk c ADelete; disk c' ACreate] = Some o /\ o_applied o = [disk a' ACreate; disk c ADelete].
Proof.
  intros w a a' c c' N Ca Cc. unfold modify. set (e := mkEnv _ _ _ _).
  assert (E : forall o n, In (o, n) [(a, a'); (c, c')] -> path_after e o = None /\ path_after e n <> None).
  { intros o n H. assert (X := renames_end w [(a, a'); (c, c')] N). destruct (X) with (k := known w) (o := o) (n := n) as [X1 X2]; [intros x y [Y|[Y|[]]]; injection Y as <- <-; assumption|exact H|].
    unfold e, update. cbn [path_after]. unfold rename_mods in X1, X2. cbn [flat_map app] in X1, X2. rewrite X1, X2. split; [reflexivity|]. destruct H as [Y|[Y|[]]]; injection Y as <- <-; assumption. }
  pose proof (idxs_renames e [(a, a'); (c, c')] E 0) as I. cbn in I. unfold did_modify. pose proof (scan_fst e 0 [disk a ADelete; disk a' ACreate; disk c ADelete; disk c' ACreate]) as S0. destruct (scan e 0 _) as [del rec]. cbn [fst] in S0. subst del.
  change (idxs e 0 [disk a ADelete; disk a' ACreate; disk c ADelete; disk c' ACreate]) with (idxs e 0 (rename_mods [(a, a'); (c, c')])). rewrite (idxs_renames e [(a, a'); (c, c')] E 0). cbn [length evens delete_all delete_at]. eexists. split; reflexivity.
Qed.

Print Assumptions C128_told.
Print Assumptions C128_on_disk.
Print Assumptions C128_refused_partial.
Print Assumptions C128_created_refuted.
Print Assumptions C128_moved_refuted.
Print Assumptions C129_created_partial.
Print Assumptions C129_deleted_partial.
Print Assumptions C129_renamed_partial.
Print Assumptions C129_deleted_refuted.
Print Assumptions C129_renamed_refuted.
Print Assumptions C129_two_renamed_refuted.
