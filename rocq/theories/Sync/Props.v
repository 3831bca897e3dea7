From Coq Require Import ZArith Lia Ascii String.
From Verif Require Import Base Strs.
From Verif.Documents Require Import Model.
From Verif.Sync Require Import Model Spec Proofs.
Open Scope list_scope.

Definition both (P Q : state -> event -> Prop) (s : state) (e : event) : Prop := P s e /\ Q s e.
Definition append (x : bytes) : changes := Incremental (fun t => Some (t ++ x)).
(** the file is in a folder, opened, changed, saved, changed on disk and told, closed *)
Definition ordinary : list event :=
  [Folders (Some 0) true; Open (b_ "ab") true; Edit (append (b_ "c")) false; Told AChange true false; Save false; Edit (Full (b_ "x")) false; Save false; Close;
   Written (Some (b_ "y")); Told AChange true false].
Lemma along_cons (P : state -> event -> Prop) s e s' r : P s e -> step s e = Some s' -> along P s' r -> along P s (e :: r).
Proof. intros H E A. split; [exact H|]. now rewrite E. Qed.
Lemma along_last (P : state -> event -> Prop) s e : P s e -> along P s [e].
Proof. intros H. split; [exact H|]. now destruct (step s e). Qed.
Ltac held_now := eexists; split; [exists 0; split; reflexivity|intros _; reflexivity].
Ltac one := first [exact I | reflexivity | discriminate | now left | (left; reflexivity) | (right; left; reflexivity) | (right; right; reflexivity)
  | (eexists; eexists; split; reflexivity) | held_now | (right; split; [discriminate|reflexivity])].
Ltac session := repeat (eapply along_cons; [unfold both, tidy, settled, legal; repeat match goal with |- _ /\ _ => split end; one|vm_compute; reflexivity|]); first [exact I | apply along_last; unfold both, tidy, settled, legal; repeat match goal with |- _ /\ _ => split end; one].
Example ordinary_ok : along (both legal tidy) (start (Some (b_ "ab"))) ordinary.
Proof. unfold ordinary. session. Qed.

(** * C154: editing does not stop the server *)

(** Whatever is opened in a workspace that knows the file and stays in it while it is open can be edited, saved and
    closed, whatever happens on disk. *)
Theorem C154_no_crash_partial d es : along (both legal settled) (start d) es -> exists s, run (start d) es = Some s.
Proof.
  intros A. destruct (run_inv (both legal settled) covered) with (es := es) (s := start d) as (s & R & _); eauto.
  - intros s e C H. apply covered_step; assumption.
  - intros H. exfalso. now apply H.
Qed.
Example C154_case : along (both legal settled) (start (Some (b_ "ab"))) ordinary /\ exists s, run (start (Some (b_ "ab"))) ordinary = Some s.
Proof.
  assert (H := ordinary_ok). assert (G : along (both legal settled) (start (Some (b_ "ab"))) ordinary).
  { revert H. generalize ordinary, (start (Some (b_ "ab"))). intros es. induction es as [|e r IH]; intros s H; [exact I|].
    destruct H as [[H1 [H2 _]] H3]. split; [now split|]. destruct (step s e); auto. }
  split; [exact G|]. now apply C154_no_crash_partial.
Qed.
(** A notification stops the server exactly if it is about an edit, a save or the closing of a document that the
    workspace has a path for, and no overlay. *)
Theorem C154_crash_iff s e : step s e = None <-> exists c h, route s = Some c /\ ws s c = Some h /\ h_path h = true /\ h_overlay h = None /\
  match e with
  | Edit ch gone => gone = false /\ changed_text ch (disk s) <> None
  | Save gone => gone = false
  | Close => True
  | _ => False
  end.
Proof.
  split.
  - destruct e as [t proto|ch gone|gone| |t|a ok gone|cc ok]; unfold step, serve; cbn [route ws disk editor]; intros H.
    + exfalso. destruct (route s) as [c|]; [|discriminate]. destruct (ws s c) as [h|]; [|discriminate]. cbn [path_after is_some] in H.
      rewrite deliver_eq in H by (congruence || auto). unfold update_overlay in H. cbn [n_mod n_text n_disk m_action] in H.
      destruct proto, (h_path h), (h_overlay h); discriminate.
    + destruct (route s) as [c|]; [|discriminate]. destruct (ws s c) as [h|] eqn:W; [|discriminate].
      destruct (changed_text ch (read (h_overlay h) (disk s))) as [t|] eqn:T; [|discriminate]. rewrite deliver_eq in H by congruence.
      unfold update_overlay in H. cbn [n_mod n_text n_disk m_action path_after] in H.
      destruct (h_path h) eqn:P, gone; cbn [andb negb] in H; try discriminate. destruct (h_overlay h) eqn:V; [discriminate|].
      exists c, h. repeat split; auto. cbn [read] in T. congruence.
    + destruct (route s) as [c|]; [|discriminate]. destruct (ws s c) as [h|] eqn:W; [|discriminate]. rewrite deliver_eq in H by congruence.
      unfold update_overlay in H. cbn [n_mod n_text n_disk m_action path_after] in H.
      destruct (h_path h) eqn:P, gone; cbn [andb negb] in H; try discriminate. destruct (h_overlay h) eqn:V; [discriminate|].
      exists c, h. repeat split; auto.
    + destruct (route s) as [c|]; [|discriminate]. destruct (ws s c) as [h|] eqn:W; [|discriminate]. rewrite deliver_eq in H by congruence.
      unfold update_overlay in H. cbn [n_mod n_text n_disk m_action path_after] in H.
      destruct (h_path h) eqn:P; try discriminate. destruct (h_overlay h) eqn:V; [discriminate|].
      exists c, h. repeat split; auto.
    + discriminate.
    + exfalso. destruct (route s) as [c|]; [|discriminate]. destruct (ws s c) as [h|] eqn:W; [|discriminate].
      assert (D : a = ADelete -> path_after a (is_some (disk s)) ok gone (h_path h) = false) by (intros ->; reflexivity).
      assert (O : a = AOpen -> path_after a (is_some (disk s)) ok gone (h_path h) = h_path h) by (intros ->; reflexivity).
      rewrite deliver_eq in H by assumption. destruct (path_after a (is_some (disk s)) ok gone (h_path h)); unfold update_overlay in H; cbn [n_mod n_text n_disk m_action] in H;
        destruct a, (h_overlay h); discriminate.
    + exfalso. destruct cc as [i|]; [destruct (ws s i)|]; discriminate.
  - intros (c & h & R & W & P & V & E). destruct e as [t proto|ch gone|gone| |t|a ok gone|cc ok]; try contradiction; unfold step, serve; cbn [route ws disk editor]; rewrite R, W.
    + destruct E as [-> E]. rewrite V. cbn [read]. destruct (changed_text ch (disk s)) as [t|]; [|congruence]. rewrite deliver_eq by congruence.
      unfold update_overlay. rewrite P, V. reflexivity.
    + subst gone. rewrite deliver_eq by congruence. unfold update_overlay. rewrite P, V. reflexivity.
    + rewrite deliver_eq by congruence. unfold update_overlay. rewrite P, V. reflexivity.
Qed.
Example C154_iff_case : exists s, run (start None) [Folders (Some 0) true; Open (b_ "a") true; Save false; Told ACreate true false] = Some s /\
  step s (Edit (append (b_ "b")) false) = None /\ step s (Edit (append (b_ "b")) true) <> None.
Proof. eexists. split; [vm_compute; reflexivity|]. split; [vm_compute; reflexivity|vm_compute; discriminate]. Qed.
(** In general it does: a new file, opened before it is on disk, saved, noticed by the watcher and changed again; *)
Theorem C154_new_file_refuted : exists es, along legal (start None) es /\ (forall c ok, ~ In (Folders (Some (S c)) ok) es) /\ ~ In (Folders None true) es /\
  run (start None) es = None.
Proof.
  exists [Folders (Some 0) true; Open (b_ "a") true; Save false; Told ACreate true false; Edit (append (b_ "b")) false].
  split; [|split; [|split; [|vm_compute; reflexivity]]].
  - session.
  - intros c ok H. simpl in H. intuition congruence.
  - intros H. simpl in H. intuition congruence.
Qed.
(** and a document that is open while its folder is added to the workspace, by the next edit, save, or when it is
    closed. *)
Theorem C154_folder_refuted : exists es d, (forall x, In x [Edit (append (b_ "b")) false; Save false; Close] -> along legal (start d) (es ++ [x]) /\ run (start d) (es ++ [x]) = None) /\
  forall x, ~ In (Written x) es /\ forall a ok gone, ~ In (Told a ok gone) es.
Proof.
  exists [Open (b_ "a") true; Folders (Some 0) true], (Some (b_ "a")). split.
  - intros x [<- | [<- | [<- | []]]]; (split; [cbn [app]; session|vm_compute; reflexivity]).
  - intros x. split; [|intros a ok gone]; intros H; simpl in H; intuition congruence.
Qed.

(** * C155: the server works on the text of the document *)

(** When the folders of the client change, the document belongs to the workspace of its folder from then on; nothing that a
    workspace holds is lost, and one that is new holds the file on disk. *)
Theorem C155_folders s c ok : exists s', step s (Folders c ok) = Some s' /\ route s' = c /\ editor s' = editor s /\ disk s' = disk s /\
  (forall x h, ws s x = Some h -> ws s' x = Some h) /\
  (forall i, c = Some i -> ws s i = None -> exists h, held s' h /\ h_overlay h = None /\
     (disk s <> None -> ok = true -> h_path h = true /\ h_compiled h = disk s) /\ (h_path h = false -> h_compiled h = None)).
Proof.
  unfold step. destruct c as [i|]; [|eexists; split; [reflexivity|]; repeat split; auto; discriminate].
  destruct (ws s i) as [h|] eqn:W; (eexists; split; [reflexivity|]); unfold set_ws; cbn [route editor disk ws].
  - repeat (split; [now auto|]). intros x [= <-]. congruence.
  - do 3 (split; [reflexivity|]). split.
    + intros x h H. destruct (Nat.eqb_spec x i) as [->|]; [congruence|exact H].
    + intros x [= <-] _. eexists. split; [exists i; cbn [route ws]; rewrite Nat.eqb_refl; split; reflexivity|].
      cbn [h_overlay h_path h_compiled]. split; [reflexivity|]. destruct (disk s), ok; cbn; repeat split; congruence.
Qed.
Example C155_folders_case : exists s', step (start (Some (b_ "a"))) (Folders (Some 2) true) = Some s' /\ held s' (mkH true None (Some (b_ "a"))).
Proof. eexists. split; [reflexivity|]. exists 2. split; reflexivity. Qed.
(** If moreover the file is not deleted while the document is open, what is in the editor is what the server has as
    its text, and what its results are of; *)
Theorem C155_text_partial d es s t : along (both legal tidy) (start d) es -> run (start d) es = Some s -> editor s = Some t ->
  exists h, held s h /\ h_overlay h = Some t /\ h_compiled h = Some t.
Proof.
  intros A R E. destruct (run_inv (both legal tidy) agrees) with (es := es) (s := start d) as (s' & R' & [J _]); eauto.
  - intros x e C H. apply agrees_step; assumption.
  - apply closed_agrees; [reflexivity|]. intros c h H. discriminate.
  - rewrite R in R'. injection R' as <-. destruct (J t E) as (h & H & ->). exists (mkH true (Some t) (Some t)). auto.
Qed.
(** and after it is closed, the text is that of the file, in all workspaces. *)
Theorem C155_closed d es s : along (both legal tidy) (start d) es -> run (start d) es = Some s -> editor s = None ->
  forall c h, ws s c = Some h -> read (h_overlay h) (disk s) = disk s.
Proof.
  intros A R E c h W. destruct (run_inv (both legal tidy) agrees) with (es := es) (s := start d) as (s' & R' & J); eauto.
  - intros x e C H. apply agrees_step; assumption.
  - apply closed_agrees; [reflexivity|]. intros x y H. discriminate.
  - rewrite R in R'. injection R' as <-. now rewrite (agrees_closed s J E c h W).
Qed.
(** The results are of the file too, if it was saved when it was closed, *)
Theorem C155_saved d es s : along (both legal tidy) (start d) (es ++ [Close]) -> run (start d) (es ++ [Close]) = Some s ->
  (exists s', run (start d) es = Some s' /\ editor s' = disk s') -> exists h, held s h /\ h_compiled h = disk s.
Proof.
  intros A R (s' & R' & SV).
  assert (G : forall es s0, run s0 es = Some s' -> run s0 (es ++ [Close]) = Some s -> along (both legal tidy) s0 (es ++ [Close]) ->
     step s' Close = Some s /\ legal s' Close /\ along (both legal tidy) s0 es).
  { clear. induction es as [|e r IH]; intros s0 R1 R2 A; cbn [run app along] in *.
    - injection R1 as <-. destruct A as [[A _] _]. destruct (step s0 Close); [|discriminate]. injection R2 as <-. auto.
    - destruct (step s0 e) as [s1|]; [|discriminate]. destruct A as [A B]. destruct (IH s1 R1 R2 B) as (X & Y & Z). auto. }
  destruct (G es (start d) R' R A) as (ST & LG & AL). clear G. simpl in LG. destruct (editor s') as [t|] eqn:E; [|congruence].
  destruct (run_inv (both legal tidy) agrees) with (es := es) (s := start d) as (s2 & R2 & [J _]); eauto.
  - intros x e C H. apply agrees_step; assumption.
  - apply closed_agrees; [reflexivity|]. intros c h H. discriminate.
  - rewrite R' in R2. injection R2 as <-. destruct (J t E) as (h & (c & RT & W) & ->).
    unfold step, serve in ST. cbn [route ws disk] in ST. rewrite RT, W in ST. rewrite deliver_eq in ST by congruence. cbn in ST. injection ST as <-.
    exists (mkH true None (Some t)). split; [now apply held_set|]. exact SV.
Qed.
(** or when the server is told of a change of a file that is not open. *)
Theorem C155_told d es s s' a ok gone : along (both legal tidy) (start d) es -> run (start d) es = Some s -> editor s = None ->
  a = AChange \/ a = ACreate -> step s (Told a ok gone) = Some s' -> forall h, held s' h -> h_path h = true -> h_compiled h = disk s'.
Proof.
  intros A R E L ST h (c & RT & W) P. destruct (run_inv (both legal tidy) agrees) with (es := es) (s := start d) as (s2 & R2 & J); eauto.
  - intros x e C H. apply agrees_step; assumption.
  - apply closed_agrees; [reflexivity|]. intros x y H. discriminate.
  - rewrite R in R2. injection R2 as <-. unfold step, serve in ST.
    destruct (route s) as [c1|] eqn:R1; [|injection ST as <-; congruence]. destruct (ws s c1) as [h1|] eqn:W1; [|injection ST as <-; congruence].
    assert (V := agrees_closed s J E c1 h1 W1). rewrite deliver_eq in ST by (destruct L as [-> | ->]; congruence). unfold update_overlay in ST. cbn [n_mod n_text n_disk m_action] in ST. rewrite V in ST.
    destruct (path_after a (is_some (disk s)) ok gone (h_path h1)); destruct L as [-> | ->]; injection ST as <-; unfold set_ws in RT, W; simpl in RT, W; rewrite R1 in RT; injection RT as <-;
      rewrite Nat.eqb_refl in W; injection W as <-; simpl in P; try discriminate; reflexivity.
Qed.
Example C155_case : exists s h, run (start (Some (b_ "ab"))) ordinary = Some s /\ held s h /\ h_compiled h = Some (b_ "y") /\
  exists s2 h2, run (start (Some (b_ "ab"))) (firstn 6 ordinary) = Some s2 /\ held s2 h2 /\ editor s2 = Some (b_ "x") /\ disk s2 = Some (b_ "abc") /\ h_compiled h2 = Some (b_ "x").
Proof. eexists. eexists. split; [vm_compute; reflexivity|]. split; [exists 0; split; reflexivity|]. split; [reflexivity|]. eexists. eexists. split; [vm_compute; reflexivity|]. split; [exists 0; split; reflexivity|]. repeat split. Qed.

(** A document that is closed without being saved leaves the results of the text that was thrown away, although the
    file has never changed. *)
Theorem C155_discarded_refuted : exists es d s h, along (both legal tidy) (start d) es /\ run (start d) es = Some s /\ editor s = None /\ disk s = d /\
  (forall t, ~ In (Written t) es) /\ (forall g, ~ In (Save g) es) /\ held s h /\ h_compiled h <> disk s.
Proof.
  exists [Folders (Some 0) true; Open (b_ "a") true; Edit (append (b_ "b")) false; Close], (Some (b_ "a")). eexists. eexists.
  split; [|split; [vm_compute; reflexivity|]; split; [reflexivity|]; split; [reflexivity|]; split; [|split; [|split; [exists 0; split; reflexivity|discriminate]]]].
  - session.
  - intros t H. simpl in H. intuition congruence.
  - intros g H. simpl in H. intuition congruence.
Qed.
(** What is typed while the file is deleted on disk and made again, as tools that replace files do, is lost to the server: its
    text differs from the editor's ever after. *)
Theorem C155_replaced_refuted : exists es d s h t, along (both legal settled) (start d) es /\ run (start d) es = Some s /\ held s h /\ disk s = d /\
  editor s = Some t /\ h_path h = true /\ h_overlay h <> Some t /\ h_compiled h <> Some t /\
  exists s' h', run s [Edit (append (b_ "!")) false] = Some s' /\ held s' h' /\ h_compiled h' <> editor s'.
Proof.
  exists [Folders (Some 0) true; Open (b_ "a") true; Written None; Told ADelete true false; Edit (append (b_ "b")) false; Written (Some (b_ "a")); Told ACreate true false], (Some (b_ "a")).
  eexists. eexists. eexists. split.
  - session.
  - split; [vm_compute; reflexivity|]. split; [exists 0; split; reflexivity|]. split; [reflexivity|]. split; [reflexivity|]. split; [reflexivity|]. split; [discriminate|]. split; [discriminate|].
    eexists. eexists. split; [vm_compute; reflexivity|]. split; [exists 0; split; reflexivity|]. discriminate.
Qed.
(** When a deleted file is closed in the editor, its text stays with the server; a new file of that name is taken to
    have it. *)
Theorem C155_ghost_refuted : exists es d s h, along (both legal settled) (start d) es /\ run (start d) es = Some s /\ editor s = None /\ held s h /\
  disk s = Some (b_ "new") /\ read (h_overlay h) (disk s) = Some (b_ "old") /\ h_compiled h = Some (b_ "old") /\
  last es Close = Told ACreate true false.
Proof.
  exists [Folders (Some 0) true; Open (b_ "old") true; Written None; Told ADelete true false; Close; Written (Some (b_ "new")); Told ACreate true false], (Some (b_ "old")).
  eexists. eexists. split.
  - session.
  - split; [vm_compute; reflexivity|]. split; [reflexivity|]. split; [exists 0; split; reflexivity|]. repeat split.
Qed.

Print Assumptions C154_no_crash_partial.
Print Assumptions C154_crash_iff.
Print Assumptions C154_new_file_refuted.
Print Assumptions C154_folder_refuted.
Print Assumptions C155_folders.
Print Assumptions C155_text_partial.
Print Assumptions C155_closed.
Print Assumptions C155_saved.
Print Assumptions C155_told.
Print Assumptions C155_discarded_refuted.
Print Assumptions C155_replaced_refuted.
Print Assumptions C155_ghost_refuted.
