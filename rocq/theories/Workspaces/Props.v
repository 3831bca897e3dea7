(** C38, C69-C75: workspace folders. *)
From Coq Require Import Ascii String Permutation.
From Verif Require Import Base Strs.
From Verif.Workspaces Require Import Model Spec Proofs.
Open Scope list_scope.

Definition nobody : bytes -> bool := fun _ => false.
Definition ws_a := mkCache 0 (mkFolder (b_ "file:///w/app") (b_ "app")) nobody.
Definition ws_b := mkCache 1 (mkFolder (b_ "file:///w/app2") (b_ "app2")) nobody.
Definition ws_in := mkCache 2 (mkFolder (b_ "file:///w/app/api") (b_ "api")) nobody.

(** ** C38: the workspace that serves a document *)

(** Exactly these workspaces can be the answer, one for each iteration order of the map: those whose folder
    path is a textual prefix of the document's path that is not followed by "/vendor"; if there are none,
    those that track the document. *)
Theorem C38_possible_answers :
  forall m uri path c, possible m uri [] path (Served c) <->
  (exists p, In (p, c) m /\ starts p path /\ ~ starts (p ++ b_ "/vendor") path) \/
  ((forall p c', In (p, c') m -> starts p path -> starts (p ++ b_ "/vendor") path) /\
   exists p, In (p, c) m /\ c_tracks c uri = true).
Proof. exact possible_iff. Qed.

(** If folder paths are prefixes only of what lies in them, an answer contains the document or tracks it. *)
Theorem C38_enclosing_partial :
  forall m order uri path c, Permutation m order -> cache_for_uri order uri [] path = Served c ->
  (forall p c', In (p, c') m -> starts p path -> inside p path) ->
  exists p, In (p, c) m /\ (inside p path \/ c_tracks c uri = true).
Proof.
  intros m order uri path c P H Hb. assert (Hp : possible m uri [] path (Served c)) by (exists order; auto).
  apply possible_iff in Hp as [(p & Hin & Hs & _)|(_ & p & Hin & Ht)]; exists p; split; auto. left. eapply Hb; eauto.
Qed.
(** and if exactly one folder is a prefix, every iteration order gives that workspace *)
Theorem C38_single_folder_partial :
  forall m order uri path c p, In (p, c) m -> inside p path -> ~ starts (p ++ b_ "/vendor") path ->
  (forall q c', In (q, c') m -> starts q path -> q = p /\ c' = c) ->
  Permutation m order -> cache_for_uri order uri [] path = Served c.
Proof. intros m order uri path c p H1 H2. apply order_irrelevant; [assumption|now apply inside_starts]. Qed.
Example C38_example : forall order, Permutation [(b_ "/w/app", ws_a); (b_ "/x", ws_b)] order ->
  cache_for_uri order [] [] (b_ "/w/app/a.proto") = Served ws_a.
Proof.
  intros order P. apply (C38_single_folder_partial _ order [] (b_ "/w/app/a.proto") ws_a (b_ "/w/app")) in P; [exact P|now left|right; now exists (b_ "a.proto")| |].
  - intro H. apply has_prefix_spec in H. discriminate.
  - intros q c' [[= <- <-]|[[= <- <-]|[]]] Hs; [auto|]. apply has_prefix_spec in Hs. discriminate.
Qed.
(** A request that names a workspace folder is served by the workspace with that URI, if there is one. *)
Theorem C38_by_folder :
  forall order w,
  (forall c, cache_for_workspace order w = Served c -> f_uri (c_ws c) = f_uri w /\ exists p, In (p, c) order) /\
  ((exists p c, In (p, c) order /\ f_uri (c_ws c) = f_uri w) -> exists c, cache_for_workspace order w = Served c).
Proof.
  intros order w. unfold cache_for_workspace. destruct (find _ order) as [[q d]|] eqn:E; split.
  - intros c [= <-]. apply find_some in E as [I E]. apply beq_eq in E. split; [exact E|]. now exists q.
  - eauto.
  - discriminate.
  - intros (p & c & I & U). exfalso. apply (find_none _ _ E) in I. cbn [snd] in I. rewrite U, beq_refl in I. discriminate.
Qed.
(** Some workspace is found for a document in a folder but not under "vendor...". *)
Theorem C38_found :
  forall m order uri path p c, In (p, c) m -> inside p path -> ~ starts (p ++ b_ "/vendor") path ->
  Permutation m order -> exists c', cache_for_uri order uri [] path = Served c'.
Proof.
  intros m order uri path p c H1 H2 H3 P. apply inside_starts in H2. unfold cache_for_uri. cbn [negb]. rewrite (beq_refl []). cbn [negb].
  destruct (find (takes path) order) as [e|] eqn:E; [eauto|]. exfalso. pose proof (find_perm_none _ _ _ P E _ H1) as Hf.
  rewrite (proj2 (takes_spec path (p, c))) in Hf by auto. discriminate.
Qed.
(** Missing: folders whose path is a textual prefix of a sibling's ("/w/app", "/w/app2"), nested folders, and
    directories whose name starts with "vendor". *)
Theorem C38_sibling_refuted :
  exists m order path c c', NoDup (map fst m) /\ Permutation m order /\ In (b_ "/w/app2", c') m /\ inside (b_ "/w/app2") path /\
  cache_for_uri order [] [] path = Served c /\ c <> c' /\ forall p, In (p, c) m -> ~ inside p path.
Proof.
  exists [(b_ "/w/app", ws_a); (b_ "/w/app2", ws_b)], [(b_ "/w/app", ws_a); (b_ "/w/app2", ws_b)], (b_ "/w/app2/x.proto"), ws_a, ws_b.
  split; [repeat constructor; cbn; intuition discriminate|]. split; [apply Permutation_refl|]. split; [cbn; auto|].
  split; [right; now exists (b_ "x.proto")|]. split; [reflexivity|]. split; [intro H; apply (f_equal c_id) in H; discriminate|].
  intros p [[= <-]|[H|[]]].
  - intros [H|[r H]]; [discriminate|]. change (b_ "/w/app2/x.proto") with (b_ "/w/app" ++ b_ "2/x.proto") in H. apply app_inv_head in H. discriminate.
  - apply (f_equal (fun x => c_id (snd x))) in H. discriminate.
Qed.
(** nested folders: the answer depends on the iteration order of the map *)
Theorem C38_nested_refuted :
  exists m o1 o2 path c1 c2, NoDup (map fst m) /\ Permutation m o1 /\ Permutation m o2 /\
  cache_for_uri o1 [] [] path = Served c1 /\ cache_for_uri o2 [] [] path = Served c2 /\ c1 <> c2.
Proof.
  exists [(b_ "/w/app", ws_a); (b_ "/w/app/api", ws_in)], [(b_ "/w/app", ws_a); (b_ "/w/app/api", ws_in)],
    [(b_ "/w/app/api", ws_in); (b_ "/w/app", ws_a)], (b_ "/w/app/api/x.proto"), ws_a, ws_in.
  split; [repeat constructor; cbn; intuition discriminate|]. split; [apply Permutation_refl|]. split; [apply perm_swap|].
  split; [reflexivity|]. split; [reflexivity|]. intro H. apply (f_equal c_id) in H. discriminate.
Qed.
(** a document in a directory called "vendored" is in no workspace *)
Theorem C38_vendor_refuted :
  exists m path, inside (b_ "/w/app") path /\ ~ starts (b_ "/w/app/vendor/") path /\ In (b_ "/w/app", ws_a) m /\
  forall order, Permutation m order -> cache_for_uri order [] [] path = NoWorkspace.
Proof.
  exists [(b_ "/w/app", ws_a)], (b_ "/w/app/vendored/x.proto"). split; [right; now exists (b_ "vendored/x.proto")|].
  split; [intro H; apply has_prefix_spec in H; discriminate|]. split; [now left|].
  intros order P. apply Permutation_length_1_inv in P. subst. reflexivity.
Qed.

(** ** C69: folder changes take effect *)

(** After a change the folders are the old and the added ones without the removed ones. *)
Theorem C69_change :
  forall path_of ops added removed p,
  let s := run path_of ops in
  In p (paths (step path_of s (ChangeFolders added removed))) <->
  (In p (paths s) \/ exists f, In f added /\ p = path_of (f_uri f)) /\ ~ (exists f, In f removed /\ p = path_of (f_uri f)).
Proof.
  intros path_of ops added removed p s. cbn [step]. rewrite (paths_destroys path_of) by (apply inv_adds, inv_run). rewrite paths_adds.
  assert (E : In p (map (fun f => path_of (f_uri f)) removed) <-> exists f, In f removed /\ p = path_of (f_uri f)).
  { rewrite in_map_iff. split; intros (f & H1 & H2); exists f; auto. }
  now rewrite E.
Qed.
(** That is what the notification asks for, the old ones without the removed ones and all added ones, exactly
    if no folder is both added and removed. *)
Theorem C69_change_as_asked_iff_partial :
  forall path_of ops added removed,
  let s := run path_of ops in
  (forall p, In p (paths (step path_of s (ChangeFolders added removed))) <->
     (In p (paths s) /\ ~ (exists f, In f removed /\ p = path_of (f_uri f))) \/ exists f, In f added /\ p = path_of (f_uri f)) <->
  (forall f g, In f added -> In g removed -> path_of (f_uri f) <> path_of (f_uri g)).
Proof.
  intros path_of ops added removed s. split.
  - intros H f g Hf Hg E. assert (X : In (path_of (f_uri f)) (paths (step path_of s (ChangeFolders added removed)))) by (apply H; right; eauto).
    apply C69_change in X as [_ X]. apply X. eauto.
  - intros D p. unfold s. rewrite C69_change. fold s. split.
    + intros [[H|H] Hn]; auto.
    + intros [[H Hn]|(f & Hf & ->)]; [auto|]. split; [right; eauto|]. intros (g & Hg & E). now apply (D f g).
Qed.
(* Missing: a notification that removes and re-adds a folder, which is how a folder is renamed: *)
Theorem C69_rename_refuted :
  exists path_of ops f g, let s := run path_of ops in
  In (path_of (f_uri f)) (paths s) /\ f_uri f = f_uri g /\ f_name f <> f_name g /\ paths (step path_of s (ChangeFolders [g] [f])) = [].
Proof.
  exists (fun u => u), [Initialize [mkFolder (b_ "/w") (b_ "old")]], (mkFolder (b_ "/w") (b_ "old")), (mkFolder (b_ "/w") (b_ "new")).
  cbv zeta. split; [now left|]. split; [reflexivity|]. split; [discriminate|]. reflexivity.
Qed.
(** Reindexing keeps the folders and replaces every cache; shutting down leaves none. *)
Theorem C69_reindex :
  forall path_of ops, let s := run path_of ops in
  (forall p f, (exists i, In (p, (i, f)) (caches (step path_of s Reindex))) <-> exists i, In (p, (i, f)) (caches s)) /\
  (forall p i f, In (p, (i, f)) (caches (step path_of s Reindex)) -> ~ In i (ids s)) /\
  caches (step path_of s Shutdown) = [].
Proof.
  intros path_of ops s. pose proof (inv_run path_of ops) as I. fold s in I.
  assert (F : forall p i f, In (p, (i, f)) (caches (step path_of s Reindex)) -> ~ In i (ids s)).
  { intros p i f H Hi. apply reindex_fresh_ids in H; [|assumption]. pose proof (i_old _ _ I i (or_introl Hi)). lia. }
  split; [|split; [exact F|reflexivity]]. intros p f. rewrite <- (reindex_spec path_of s I). split.
  - intros (i & H). exists i. split; [assumption|]. now apply reindex_fresh_ids in H.
  - intros (i & H & _). eauto.
Qed.
Example C69_example :
  let s := run (fun u => u) [Initialize [mkFolder (b_ "/a") (b_ "a"); mkFolder (b_ "/b") (b_ "b")];
                             ChangeFolders [mkFolder (b_ "/c") (b_ "c")] [mkFolder (b_ "/a") (b_ "a")]; Reindex] in
  paths s = [b_ "/c"; b_ "/b"] \/ paths s = [b_ "/b"; b_ "/c"].
Proof. vm_compute. auto. Qed.

(** ** C70: background tasks end with their workspace *)

(** No operation fails, every workspace has its background tasks running, ... *)
Theorem C70_tasks_running :
  forall path_of ops, let s := run path_of ops in
  panicked s = false /\ NoDup (paths s) /\ forall i, In i (ids s) -> In i (live s).
Proof.
  intros path_of ops s. pose proof (inv_run path_of ops) as I. split; [apply (i_panic _ _ I)|]. split; [apply (i_nodup _ _ I)|apply (i_live _ _ I)].
Qed.
(** ... and no other tasks are running exactly if no folder was ever added while it was known. *)
Theorem C70_no_leak_iff_partial :
  forall path_of ops, let s := run path_of ops in
  (forall i, In i (live s) -> In i (ids s)) <-> no_readd path_of init ops.
Proof.
  intros path_of ops s. pose proof (tidy_fold path_of ops init (inv_init path_of)) as H. unfold tidy at 1 in H. unfold s, run. rewrite H.
  split; [tauto|]. intro N. split; [apply tidy_init|exact N].
Qed.
(* Missing: a folder that is added twice (again, or by two folders with one path). Its first cache goes on
   publishing diagnostics after the folder is removed, and after shutdown. *)
Theorem C70_leak_refuted :
  exists path_of ops, let s := run path_of ops in caches s = [] /\ live s <> [].
Proof.
  exists (fun u => u), [Initialize [mkFolder (b_ "/w") (b_ "w")]; ChangeFolders [mkFolder (b_ "/w") (b_ "w")] []; Shutdown].
  cbv zeta. split; [reflexivity|]. vm_compute. discriminate.
Qed.
Example C70_example : no_readd (fun u => u) init
  [Initialize [mkFolder (b_ "/w") (b_ "w")]; ChangeFolders [] [mkFolder (b_ "/w") (b_ "w")]; ChangeFolders [mkFolder (b_ "/w") (b_ "w")] []; Reindex].
Proof. cbn. intuition discriminate. Qed.

(** ** C71: reindexing keeps what is in the editor *)

(** Exactly the open documents that can be read from disk stay open; their text is kept exactly if the overlay
    is not marked as saved or the file on disk still has its text. *)
Theorem C71_open_documents_iff_partial :
  forall disk dv os o, NoDup (map o_uri os) -> In o os ->
  ((exists v, reindexed disk dv os (o_uri o) = Some (v, o_text o)) <->
   exists t, disk (o_uri o) = Some t /\ (o_same o = true -> t = o_text o)) /\
  ((exists x, reindexed disk dv os (o_uri o) = Some x) <-> disk (o_uri o) <> None).
Proof.
  intros disk dv os o Hn Hin. rewrite (reindexed_doc disk dv os o Hn Hin). destruct (disk (o_uri o)) as [t|]; split.
  - destruct (o_same o); split.
    + intros (v & [= _ ->]). exists (o_text o). auto.
    + intros (t' & [= <-] & H). rewrite (H eq_refl). eauto.
    + intros _. exists t. split; [reflexivity|discriminate].
    + intros _. eauto.
  - split; [intros _ H; discriminate|]. intros _. destruct (o_same o); eauto.
  - split; [intros (v & H); discriminate|intros (t & H & _); discriminate].
  - split; [intros (v & H); discriminate|intro H; congruence].
Qed.
(** Documents with unsaved changes keep their version too (at least 2). *)
Theorem C71_versions_partial :
  forall disk dv os o v t, NoDup (map o_uri os) -> In o os -> reindexed disk dv os (o_uri o) = Some (v, t) ->
  if o_same o then v = dv else v = Z.max (o_version o) 2.
Proof.
  intros disk dv os o v t Hn Hin. rewrite (reindexed_doc disk dv os o Hn Hin). destruct (disk (o_uri o)); [|discriminate].
  destruct (o_same o); now intros [= <- _].
Qed.
(** No document is opened that was not open. *)
Theorem C71_nothing_else_opened :
  forall disk dv os u, reindexed disk dv os u <> None -> exists o, In o os /\ o_uri o = u.
Proof.
  intros disk dv os u H. destruct (in_dec (list_eq_dec ascii_dec) u (map o_uri os)) as [Hin|Hno].
  - apply in_map_iff in Hin as (o & H1 & H2). eauto.
  - exfalso. apply H. apply reindexed_none. intros o Ho E. apply Hno. apply in_map_iff. eauto.
Qed.
(* Missing: documents that are not on disk yet are dropped, and the version of saved documents goes back. *)
Theorem C71_unsaved_new_document_refuted :
  exists disk dv os o, NoDup (map o_uri os) /\ In o os /\ o_same o = false /\ reindexed disk dv os (o_uri o) = None.
Proof.
  exists (fun _ => None), 0%Z, [mkOverlay (b_ "file:///new.proto") 3 (b_ "message M {}") false], (mkOverlay (b_ "file:///new.proto") 3 (b_ "message M {}") false).
  split; [repeat constructor; auto|]. split; [now left|]. split; reflexivity.
Qed.
Theorem C71_version_goes_back_refuted :
  exists disk os o v, NoDup (map o_uri os) /\ In o os /\ disk (o_uri o) = Some (o_text o) /\ o_same o = true /\
  reindexed disk 0 os (o_uri o) = Some (v, o_text o) /\ (v < o_version o)%Z.
Proof.
  exists (fun _ => Some (b_ "message M {}")), [mkOverlay (b_ "file:///a.proto") 7 (b_ "message M {}") true], (mkOverlay (b_ "file:///a.proto") 7 (b_ "message M {}") true), 0%Z.
  split; [repeat constructor; auto|]. split; [now left|]. repeat split.
Qed.
Example C71_example :
  let o := mkOverlay (b_ "file:///a.proto") 7 (b_ "message M {}") false in
  reindexed (fun _ => Some (b_ "")) 0 [o; mkOverlay (b_ "file:///b.proto") 1 (b_ "") true] (o_uri o) = Some (7%Z, o_text o).
Proof. reflexivity. Qed.

(** ** C72: the set of workspaces is never read while it changes *)

(** Any number of requests other than symbol search and shutdown, under every schedule *)
Theorem C72_no_concurrent_access_partial :
  forall rs sched s, Forall (fun r => r <> RSymbol /\ forall n, r <> RShutdown n) rs ->
  mrun sched (minit (map program rs)) = Some s -> m_fatal s = false.
Proof.
  intros rs sched s H R. eapply ok_run; [|exact R]. apply ok_init. apply Forall_forall. intros p Hp. apply in_map_iff in Hp as (r & <- & Hr).
  apply guarded_program. pose proof (proj1 (Forall_forall _ _) H r Hr) as [H1 H2]. destruct r; auto. exfalso. now apply (H2 n).
Qed.
(* Missing: workspace/symbol iterates without the lock. Commands are started without waiting for them to end
   (C20), so a symbol search can run while a reindexing command modifies the map, which stops the process. *)
Theorem C72_symbol_during_reindex_refuted :
  exists sched s, mrun sched (minit (map program [RReindex 1; RSymbol])) = Some s /\ m_fatal s = true.
Proof. exists [0; 0; 0; 1; 0]. eexists. split; [reflexivity|reflexivity]. Qed.
Theorem C72_shutdown_refuted :
  exists sched s, mrun sched (minit (map program [RLookup; RShutdown 1])) = Some s /\ m_fatal s = true.
Proof. exists [0; 0; 1]. eexists. split; [reflexivity|reflexivity]. Qed.
Example C72_example : exists s, mrun [0; 0; 0; 0; 1; 1; 1; 1; 1; 2; 2; 2; 2] (minit (map program [RLookup; RReindex 1; RConfiguration])) = Some s /\ m_threads s = [[]; []; []].
Proof. eexists. split; [vm_compute; reflexivity|reflexivity]. Qed.

(** ** C73: document links *)

(** The links are those of the imports whose dependency can be found, each with the target of its own
    dependency, when the dependencies of the compiled file are those of the imports, in order, possibly with
    the implicit dependency on descriptor.proto somewhere between. *)
Theorem C73_links :
  forall (A : Type) (resolve : bytes -> option A) names own deps,
  List.length own = List.length names -> (In implicit_import names \/ ~ In implicit_import own) ->
  (deps = own \/ (~ In implicit_import names /\ exists l1 l2, own = l1 ++ l2 /\ deps = l1 ++ implicit_import :: l2)) ->
  exists r, fst (document_links resolve names deps) = Ok r /\
  forall k t, In (k, t) r <-> exists d, nth_error own k = Some d /\ resolve d = Some t.
Proof.
  change implicit_import with descriptor_proto.
  intros A resolve names own deps Hl Ho Hd.
  assert (E : fst (filter_deps names deps) = own).
  { destruct Hd as [->|(Hn & l1 & l2 & -> & ->)].
    - now rewrite filter_deps_same.
    - destruct Ho as [Ho|Ho]; [contradiction|]. rewrite (filter_deps_used names _ Hn l1 l2 eq_refl); [reflexivity|]. intro H. apply Ho, in_or_app. now left. }
  unfold document_links. destruct (filter_deps names deps) as [l after] eqn:F. cbn [fst] in E. subst l. cbn [fst].
  destruct (link_loop_ok resolve names 0 own) as (r & H1 & H2); [lia|]. exists r. split; [assumption|].
  intros k t. rewrite H2, Nat.sub_0_r. split; [tauto|]. intros (d & Hk & Hr).
  assert (k < List.length own) by (apply nth_error_Some; congruence). repeat split; [lia|lia|eauto].
Qed.
(** With fewer dependencies than imports the request panics. *)
Theorem C73_short_dependencies_panic :
  forall (A : Type) (resolve : bytes -> option A) names deps,
  In descriptor_proto names \/ ~ In descriptor_proto deps -> List.length deps < List.length names ->
  fst (document_links resolve names deps) = IndexPanic.
Proof. intros A resolve names deps H L. unfold document_links. rewrite (filter_deps_same _ _ H). now apply link_loop_panic. Qed.
(** The request leaves the compiled file as it is exactly if there is no implicit dependency, or nothing
    different follows it. *)
Theorem C73_read_only_iff_partial :
  forall (A : Type) (resolve : bytes -> option A) names deps,
  (snd (document_links resolve names deps) = deps <->
   In descriptor_proto names \/ ~ In descriptor_proto deps \/
   exists l1 n, deps = l1 ++ repeat descriptor_proto n /\ ~ In descriptor_proto l1).
Proof.
  intros A resolve names deps. assert (E : snd (document_links resolve names deps) = snd (filter_deps names deps)) by (unfold document_links; now destruct (filter_deps names deps)).
  rewrite E. clear E. destruct (in_dec (list_eq_dec ascii_dec) descriptor_proto names) as [Hn|Hn].
  { rewrite filter_deps_same by auto. cbn [snd]. split; auto. }
  pose proof (index_spec descriptor_proto deps) as Hi. destruct (index_of descriptor_proto deps) as [i|].
  - destruct Hi as (Hi & Hf & Hlen). destruct (nth_error_split _ _ Hi) as (l1 & l2 & -> & <-). rewrite firstn_app, firstn_all, Nat.sub_diag in Hf. cbn [firstn] in Hf. rewrite app_nil_r in Hf.
    rewrite (filter_deps_used names _ Hn l1 l2 eq_refl Hf). cbn [snd]. split.
    + intro H. right. right. apply app_inv_head in H. exists l1, (S (List.length l2)). split; [|assumption]. f_equal.
      clear -H. set (x := last (l1 ++ descriptor_proto :: l2) []) in *. clearbody x. revert x H. generalize descriptor_proto as z. clear.
      intros z x H. assert (G : forall l x (z : bytes), l ++ [x] = z :: l -> l = repeat z (List.length l)).
      { clear. induction l as [|y l IH]; intros x z H; [reflexivity|]. cbn [app] in H. injection H as -> H. cbn [List.length repeat]. f_equal. eapply IH. exact H. }
      cbn [repeat]. f_equal. eapply G. exact H.
    + intros [H|[H|(l1' & n & H & Hno)]]; [contradiction| |].
      * exfalso. apply H. apply in_or_app. right. now left.
      * assert (L : l1' = l1 /\ repeat descriptor_proto n = descriptor_proto :: l2).
        { clear Hlen Hi. revert l1' H Hno. induction l1 as [|y l1 IH]; intros l1' H Hno.
          - destruct l1' as [|y' l1']; [auto|]. cbn [app] in H. injection H as <- H. exfalso. apply Hno. now left.
          - destruct l1' as [|y' l1']; cbn [app] in H.
            + destruct n; [discriminate|]. cbn [repeat] in H. injection H as -> _. exfalso. apply Hf. now left.
            + injection H as <- H. destruct (IH (fun h => Hf (or_intror h)) l1' H (fun h => Hno (or_intror h))) as [-> ->]. auto. }
        destruct L as [-> L]. destruct n as [|n]; [discriminate|]. cbn [repeat] in L. injection L as <-.
        assert (G : forall m (z : bytes), repeat z m ++ [z] = z :: repeat z m) by (clear; induction m; intro z; cbn [repeat app]; [reflexivity|]; now rewrite IHm).
        f_equal. rewrite <- G. f_equal. f_equal. replace (l1 ++ repeat descriptor_proto n ++ [descriptor_proto]) with ((l1 ++ repeat descriptor_proto n) ++ [descriptor_proto]) by now rewrite app_assoc.
        apply last_last.
  - rewrite filter_deps_same by auto. cbn [snd]. split; auto.
Qed.
(* Missing: an implicit dependency followed by others is overwritten in the compiled file. *)
Theorem C73_read_only_refuted :
  exists names deps, ~ In descriptor_proto names /\ In descriptor_proto deps /\
  let after := snd (document_links (fun d => Some d) names deps) in ~ In descriptor_proto after /\ ~ NoDup after.
Proof.
  exists [b_ "a.proto"], [descriptor_proto; b_ "a.proto"]. split; [intros [H|[]]; discriminate|]. split; [now left|].
  vm_compute. split; [intros [H|[H|[]]]; discriminate|]. intro H. inversion H; subst. apply H2. now left.
Qed.
Example C73_example : fst (document_links (fun d => if beq d (b_ "x/b.proto") then None else Some d)
   [b_ "a.proto"; b_ "b.proto"; b_ "c.proto"] [b_ "x/a.proto"; descriptor_proto; b_ "x/b.proto"; b_ "x/c.proto"]) = Ok [(0, b_ "x/a.proto"); (2, b_ "x/c.proto")].
Proof. reflexivity. Qed.

(** ** C74: import hints *)

Definition quote : ascii := """"%char.
(** A hint is shown for exactly the imports that resolve to a different path; what is shown before the name
    completes it to that path; and accepting the hint puts that path between the quotes. *)
Theorem C74_hint_iff :
  forall names deps l r, fst (filter_deps (map (fun x => fst (fst x)) names) deps) = l ->
  fst (import_hints names deps) = Ok r ->
  forall k n q e d, nth_error names k = Some (n, q, e) -> nth_error l k = Some d ->
  ((exists h, In h r /\ h_import h = k) <-> d <> n).
Proof.
  intros names deps l r El H k n q e d Hk Hd. unfold import_hints in H. destruct (filter_deps _ deps) as [l' after] eqn:F. cbn [fst] in *. subst l'. split.
  - intros (h & Hh & Hi). destruct (hint_loop_in _ _ _ _ H h Hh) as (k' & n' & q' & e' & d' & H1 & H2 & H3 & H4). cbn [plus] in H3. rewrite Hi in H3. subst k'.
    rewrite Hk in H1. injection H1 as <- <- <-. rewrite Hd in H2. injection H2 as <-. unfold import_hint in H4. intros ->. rewrite beq_refl in H4. contradiction.
  - intro Hne. destruct (hint_loop_complete _ _ _ _ H k n q e d Hk Hd Hne) as (h & H1 & H2 & _). exists h. cbn [plus] in H2. auto.
Qed.
Theorem C74_hint_accepted :
  forall names deps l r, fst (filter_deps (map (fun x => fst (fst x)) names) deps) = l ->
  fst (import_hints names deps) = Ok r ->
  forall h k n pre body post d, In h r -> h_import h = k ->
  nth_error names k = Some (n, List.length pre, List.length pre + List.length body + 2) -> nth_error l k = Some d ->
  let line := pre ++ quote :: body ++ quote :: post in
  replace_cols line (h_from h) (h_to h) (h_new h) = pre ++ quote :: d ++ quote :: post /\
  ((h_col h = List.length pre + 1 /\ h_label h ++ n = d) \/ (List.length (pre ++ quote :: body ++ [quote]) < h_col h /\ h_label h = d)).
Proof.
  intros names deps l r El H h k n pre body post d Hh Hi Hk Hd line. unfold import_hints in H. destruct (filter_deps _ deps) as [l' after] eqn:F. cbn [fst] in *. subst l'.
  destruct (hint_loop_in _ _ _ _ H h Hh) as (k' & n' & q' & e' & d' & H1 & H2 & H3 & H4). cbn [plus] in *. rewrite Hi in H3. subst k'.
  rewrite Hk in H1. injection H1 as <- <- <-. rewrite Hd in H2. injection H2 as <-. unfold import_hint in H4. destruct (beq d n) eqn:En; [contradiction|].
  assert (R : replace_cols line (List.length pre + 1) (List.length pre + List.length body + 2 - 1) d = pre ++ quote :: d ++ quote :: post).
  { unfold replace_cols, line.
    replace (pre ++ quote :: body ++ quote :: post) with ((pre ++ [quote]) ++ body ++ quote :: post) by (rewrite <- app_assoc; reflexivity).
    replace (List.length pre + 1) with (List.length (pre ++ [quote]) + 0) by (rewrite app_length; cbn [List.length]; lia).
    rewrite firstn_app_2. cbn [firstn]. rewrite app_nil_r.
    replace (List.length pre + List.length body + 2 - 1) with (List.length ((pre ++ [quote]) ++ body)) by (rewrite !app_length; cbn [List.length]; lia).
    replace ((pre ++ [quote]) ++ body ++ quote :: post) with (((pre ++ [quote]) ++ body) ++ quote :: post) by (rewrite <- !app_assoc; reflexivity).
    rewrite skipn_app, skipn_all, Nat.sub_diag. cbn [skipn app]. now rewrite <- app_assoc. }
  destruct (has_suffix d n) eqn:Es; destruct H4 as [<-|[]]; cbn [h_from h_to h_new h_col h_label]; (split; [exact R|]).
  - left. split; [reflexivity|]. apply has_suffix_spec in Es as [x ->]. now rewrite trim_suffix_spec.
  - right. split; [|reflexivity]. rewrite app_length. cbn [List.length]. rewrite app_length. cbn [List.length]. lia.
Qed.
Example C74_example : fst (import_hints [(b_ "b.proto", 7, 16)] [b_ "x/b.proto"]) = Ok [mkHint 0 8 (b_ "x/") 8 15 (b_ "x/b.proto")] /\
  replace_cols (b_ "import ""b.proto"";") 8 15 (b_ "x/b.proto") = b_ "import ""x/b.proto"";".
Proof. split; reflexivity. Qed.

(** ** C75: files of the workspace *)

(** Renames, code lenses and generation accept only real, regular files; and only files in the workspace
    folder if its path is a prefix only of what lies in it. *)
Theorem C75_local_file_partial :
  forall root f, is_local_file root f = true ->
  is_file f = true /\ is_synthetic f = false /\ source f <> Some OModuleCache /\ source f <> Some OWellKnown /\ source f <> Some OSynthetic /\
  readable f = true /\ regular f = true /\ ((starts root (filename f) -> inside root (filename f)) -> inside root (filename f)).
Proof.
  intros root f H. unfold is_local_file in H. destruct (is_file f), (is_synthetic f); cbn [negb] in H; try discriminate.
  destruct (source f) as [[]|] eqn:S; try discriminate; destruct (readable f), (regular f); cbn [negb] in H; try discriminate;
    apply has_prefix_spec in H; repeat split; try congruence; intro X; now apply X.
Qed.
Theorem C75_accepted :
  forall root f, is_file f = true -> is_synthetic f = false -> (source f = None \/ source f = Some OOther) -> readable f = true -> regular f = true ->
  inside root (filename f) -> is_local_file root f = true.
Proof.
  intros root f H1 H2 S H3 H4 I. unfold is_local_file. apply inside_starts in I. apply has_prefix_spec in I. rewrite H1, H2, H3, H4, I.
  destruct S as [-> | ->]; reflexivity.
Qed.
(* Missing: a file in a sibling folder whose name starts like the workspace folder. *)
Theorem C75_sibling_refuted :
  exists root f, is_local_file root f = true /\ ~ inside root (filename f).
Proof.
  exists (b_ "/w/app"), (mkFacts true false None true true (b_ "/w/app2/a.proto")). split; [reflexivity|]. cbn [filename].
  intros [H|[r H]]; [discriminate|]. change (b_ "/w/app2/a.proto") with (b_ "/w/app" ++ b_ "2/a.proto") in H. apply app_inv_head in H. discriminate.
Qed.
Example C75_example : is_local_file (b_ "/w/app") (mkFacts true false (Some OOther) true true (b_ "/w/app/a.proto")) = true.
Proof. reflexivity. Qed.

Print Assumptions C38_possible_answers.
Print Assumptions C38_enclosing_partial.
Print Assumptions C38_single_folder_partial.
Print Assumptions C38_by_folder.
Print Assumptions C38_found.
Print Assumptions C38_sibling_refuted.
Print Assumptions C38_nested_refuted.
Print Assumptions C38_vendor_refuted.
Print Assumptions C69_change.
Print Assumptions C69_change_as_asked_iff_partial.
Print Assumptions C69_rename_refuted.
Print Assumptions C69_reindex.
Print Assumptions C70_tasks_running.
Print Assumptions C70_no_leak_iff_partial.
Print Assumptions C70_leak_refuted.
Print Assumptions C71_open_documents_iff_partial.
Print Assumptions C71_versions_partial.
Print Assumptions C71_nothing_else_opened.
Print Assumptions C71_unsaved_new_document_refuted.
Print Assumptions C71_version_goes_back_refuted.
Print Assumptions C72_no_concurrent_access_partial.
Print Assumptions C72_symbol_during_reindex_refuted.
Print Assumptions C72_shutdown_refuted.
Print Assumptions C73_links.
Print Assumptions C73_short_dependencies_panic.
Print Assumptions C73_read_only_iff_partial.
Print Assumptions C73_read_only_refuted.
Print Assumptions C74_hint_iff.
Print Assumptions C74_hint_accepted.
Print Assumptions C75_local_file_partial.
Print Assumptions C75_accepted.
Print Assumptions C75_sibling_refuted.
