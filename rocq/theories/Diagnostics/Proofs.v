From Coq Require Import Ascii String.
From Verif Require Import Base Strs.
From Verif.Diagnostics Require Import Model Spec.
Open Scope list_scope.

(** ** lists at a path *)
Definition at_ (s : state) (p : path) : dlist := match lists s p with Some l => l | None => new_list end.

Lemma current_iff s p ds : current s p ds <-> ds = items (at_ s p).
Proof.
  unfold current, get, at_. destruct (lists s p) as [l|]; cbn; split.
  - now intros [= ->].
  - now intros ->.
  - now intros [= <-].
  - now intros ->.
Qed.

Lemma run_from_app s a b : run_from s (a ++ b) = run_from (run_from s a) b.
Proof. unfold run_from. now rewrite fold_left_app. Qed.
Lemma run_app a b : run (a ++ b) = run_from (run a) b.
Proof. apply run_from_app. Qed.
Lemma run_snoc a o : run (a ++ [o]) = step (run a) o.
Proof. now rewrite run_app. Qed.

Lemma on_list_other p q f s : q <> p -> lists (on_list p f s) q = lists s q.
Proof. intros N. unfold on_list. destruct (lists s p); [|reflexivity]. cbn [lists]. now rewrite upd_other. Qed.
Lemma on_list_same p f s : lists (on_list p f s) p = option_map f (lists s p).
Proof. unfold on_list. destruct (lists s p) as [l|] eqn:E; cbn [lists option_map]; [now rewrite upd_same|exact E]. Qed.
Lemma on_list_rest p f s : listening (on_list p f s) = listening s /\ mapped (on_list p f s) = mapped s /\ sent (on_list p f s) = sent s.
Proof. unfold on_list. destruct (lists s p); repeat split. Qed.

(** ** frame: a step that does not touch [p] *)
Lemma step_untouched s o p : ~ touches p o ->
  items (at_ (step s o) p) = items (at_ s p) /\ resultId (at_ (step s o) p) = resultId (at_ s p) /\
  (o <> FlushOne p -> dirty (at_ (step s o) p) = dirty (at_ s p)).
Proof.
  intros N. unfold at_. destruct o as [q|q d t|q t|r t|q| | |q|q]; cbn [step touches] in *.
  - unfold create. destruct (lists s q) eqn:E; [auto|]. cbn [lists]. rewrite upd_other by congruence. auto.
  - rewrite on_list_other by congruence. auto.
  - rewrite on_list_other by congruence. auto.
  - rewrite on_list_other by congruence. auto.
  - unfold flush_one. destruct (lists s q) as [l|] eqn:E; [|auto]. destruct (dirty l) eqn:D; [|auto].
    cbn [lists]. destruct (Nat.eq_dec p q) as [->|Hn].
    + rewrite upd_same, E. cbn. auto. split; [auto|split; [auto|]]. congruence.
    + rewrite upd_other by assumption. auto.
  - auto. - auto. - auto. - auto.
Qed.

(** ** C10/C11 *)
Lemma view_fun log : forall p a b, view log p a -> view log p b -> a = b.
Proof.
  induction log as [|x log IH] using rev_ind; intros p a b Ha Hb.
  - inversion Ha; subst; try (match goal with E : ?h ++ [_] = [] |- _ => now destruct h end).
    inversion Hb; subst; try (match goal with E : ?h ++ [_] = [] |- _ => now destruct h end). reflexivity.
  - inversion Ha as [q E0|lg q ds E0|lg q ds' q' ds N V E0]; subst;
      [now destruct log|apply app_inj_tail in E0 as [-> <-]|apply app_inj_tail in E0 as [-> <-]];
    (inversion Hb as [q0 E1|lg0 q0 ds0 E1|lg0 q0 ds0' q0' ds0 N0 V0 E1]; subst;
      [now destruct log|apply app_inj_tail in E1 as [-> E1]|apply app_inj_tail in E1 as [-> E1]]); try congruence.
    eapply IH; eauto.
Qed.

Lemma view_total log p : exists ds, view log p ds.
Proof.
  induction log as [|[q ds] log [d IH]] using rev_ind; [exists []; constructor|].
  destruct (Nat.eq_dec q p) as [->|N]; [exists ds; apply v_this|exists d; now apply v_other].
Qed.

Definition synced (s : state) (p : path) : Prop :=
  dirty (at_ s p) = true \/ view (sent s) p (items (at_ s p)).

Lemma on_list_dirty s q f p : (forall l, dirty l = true -> dirty (f l) = true) ->
  (forall l, dirty (f l) = true \/ f l = l) -> synced s p -> synced (on_list q f s) p.
Proof.
  intros Hf Hd Hs. unfold synced, at_ in *.
  destruct (on_list_rest q f s) as (_ & _ & ->).
  destruct (Nat.eq_dec p q) as [->|N].
  - rewrite on_list_same. destruct (lists s q) as [l|]; cbn [option_map]; [|exact Hs].
    destruct (Hd l) as [H|H]; [now left|rewrite H; exact Hs].
  - now rewrite on_list_other by assumption.
Qed.

Lemma synced_step s o p : listening s = true -> mapped s p = true -> synced s p -> synced (step s o) p.
Proof.
  intros HL HM Hs. destruct o as [q|q d t|q t|r t|q| | |q|q]; cbn [step]; try exact Hs.
  - unfold create. destruct (lists s q) eqn:E; [exact Hs|]. unfold synced, at_ in *. cbn [lists sent].
    destruct (Nat.eq_dec p q) as [->|N]; [rewrite upd_same; rewrite E in Hs; exact Hs|now rewrite upd_other].
  - apply on_list_dirty; auto.
  - apply on_list_dirty; auto.
  - apply on_list_dirty; auto; intros l; unfold l_delete_related; destruct (remove_first r (items l)); auto.
  - unfold flush_one. destruct (lists s q) as [l|] eqn:E; [|exact Hs]. destruct (dirty l) eqn:D; [|exact Hs].
    unfold synced, at_ in *. cbn [lists sent]. destruct (Nat.eq_dec p q) as [->|N].
    + right. rewrite upd_same, HL, HM. cbn. apply v_this.
    + rewrite upd_other by assumption. destruct Hs as [Hs|Hs]; [now left|right].
      destruct (listening s && mapped s q); [apply v_other; [congruence|assumption]|assumption].
Qed.

Lemma env_step s o p : o <> Detach -> o <> Unmap p ->
  listening s = true -> mapped s p = true -> listening (step s o) = true /\ mapped (step s o) p = true.
Proof.
  intros ND NU HL HM. destruct o as [q|q d t|q t|r t|q| | |q|q]; cbn [step]; try (split; assumption).
  - unfold create. destruct (lists s q); auto.
  - destruct (on_list_rest q (l_add d t) s) as (-> & -> & _); auto.
  - destruct (on_list_rest q (l_clear t) s) as (-> & -> & _); auto.
  - destruct (on_list_rest (sfile r) (l_delete_related r t) s) as (-> & -> & _); auto.
  - unfold flush_one. destruct (lists s q) as [l|]; [destruct (dirty l)|]; auto.
  - split; [reflexivity|assumption].
  - congruence.
  - split; [assumption|]. cbn [mapped]. destruct (Nat.eq_dec p q) as [->|N]; [apply upd_same|now rewrite upd_other].
  - split; [assumption|]. cbn [mapped]. rewrite upd_other; [assumption|congruence].
Qed.

Lemma env_run h : forall s p, ~ In Detach h -> ~ In (Unmap p) h ->
  listening s = true -> mapped s p = true ->
  listening (run_from s h) = true /\ mapped (run_from s h) p = true /\ (synced s p -> synced (run_from s h) p).
Proof.
  induction h as [|o h IH]; intros s p ND NU HL HM; [auto|].
  destruct (env_step s o p) as [HL' HM']; [firstorder congruence|firstorder congruence|auto|auto|].
  destruct (IH (step s o) p) as (A & B & C); [firstorder|firstorder|auto|auto|].
  split; [exact A|]. split; [exact B|]. intros Hs. apply C. now apply synced_step.
Qed.

Lemma flush_clean s p : dirty (at_ (flush_one p s) p) = false.
Proof.
  unfold flush_one, at_. destruct (lists s p) as [l|] eqn:E; [|rewrite E; reflexivity].
  destruct (dirty l) eqn:D; [cbn [lists]; now rewrite upd_same|now rewrite E].
Qed.

Lemma clean_run h : forall s p, untouched p h -> dirty (at_ s p) = false ->
  dirty (at_ (run_from s h) p) = false.
Proof.
  induction h as [|o h IH]; intros s p U D; [exact D|]. cbn. apply (IH (step s o)).
  - intros o' H. apply U. now right.
  - destruct (step_untouched s o p) as (_ & _ & H); [apply U; now left|].
    destruct o as [q|q d t|q t|r t|q| | |q|q]; try (rewrite H; [exact D|discriminate]).
    destruct (Nat.eq_dec p q) as [->|N]; [apply flush_clean|rewrite H; [exact D|congruence]].
Qed.

(** mapping before attaching *)
Lemma mapped_run h : forall s p, ~ In (Unmap p) h -> mapped s p = true -> mapped (run_from s h) p = true.
Proof.
  induction h as [|o h IH]; intros s p NU HM; [exact HM|]. cbn. apply (IH (step s o)); [firstorder|].
  destruct o as [q|q d t|q t|r t|q| | |q|q]; cbn [step]; try assumption.
  - unfold create. destruct (lists s q); auto.
  - destruct (on_list_rest q (l_add d t) s) as (_ & -> & _); auto.
  - destruct (on_list_rest q (l_clear t) s) as (_ & -> & _); auto.
  - destruct (on_list_rest (sfile r) (l_delete_related r t) s) as (_ & -> & _); auto.
  - unfold flush_one. destruct (lists s q) as [l|]; [destruct (dirty l)|]; auto.
  - cbn [mapped]. destruct (Nat.eq_dec p q) as [->|N]; [apply upd_same|now rewrite upd_other].
  - cbn [mapped]. rewrite upd_other; [assumption|]. intros ->. apply NU. now left.
Qed.

Lemma view_current h1 h2 p ds :
  ~ In Detach (h1 ++ FlushOne p :: h2) -> ~ In (Unmap p) (h1 ++ FlushOne p :: h2) -> untouched p h2 ->
  current (run (Attach :: h1 ++ FlushOne p :: h2)) p ds ->
  view (sent (run (Attach :: h1 ++ FlushOne p :: h2))) p ds.
Proof.
  intros ND NU U C. apply current_iff in C as ->.
  set (s0 := step init Attach). change (run (Attach :: h1 ++ FlushOne p :: h2)) with (run_from s0 (h1 ++ FlushOne p :: h2)).
  destruct (env_run (h1 ++ FlushOne p :: h2) s0 p ND NU eq_refl eq_refl) as (_ & _ & S).
  destruct S as [S|S]; [right; constructor| |exact S].
  rewrite run_from_app in S. cbn [run_from fold_left] in S. fold (run_from (step (run_from s0 h1) (FlushOne p)) h2) in S.
  rewrite clean_run in S; [discriminate|assumption|apply flush_clean].
Qed.

(** since attaching *)
Lemma dirty_report s p o : reports p o -> lists s p <> None -> dirty (at_ (step s o) p) = true.
Proof.
  intros R L. unfold at_. destruct o; cbn [reports] in R; try easy; subst; cbn [step]; rewrite on_list_same;
    destruct (lists s p); try congruence; reflexivity.
Qed.

Lemma lists_kept h : forall s p, lists s p <> None -> lists (run_from s h) p <> None.
Proof.
  induction h as [|o h IH]; intros s p H; [exact H|]. cbn. apply (IH (step s o)).
  assert (K : forall q f, lists (on_list q f s) p <> None).
  { intros q f. destruct (Nat.eq_dec p q) as [->|N]; [rewrite on_list_same; now destruct (lists s q)|now rewrite on_list_other]. }
  destruct o as [q|q d t|q t|r t|q| | |q|q]; cbn [step]; auto.
  - unfold create. destruct (lists s q) eqn:E; [auto|]. cbn [lists].
    destruct (Nat.eq_dec p q) as [->|N]; [now rewrite upd_same|now rewrite upd_other].
  - unfold flush_one. destruct (lists s q) as [l|] eqn:E; [destruct (dirty l)|]; auto. cbn [lists].
    destruct (Nat.eq_dec p q) as [->|N]; [now rewrite upd_same|now rewrite upd_other].
Qed.

Lemma known_lists h p : known h p -> lists (run h) p <> None.
Proof.
  unfold known. intros H. apply in_split in H as (a & b & ->). rewrite run_app. cbn [run_from fold_left].
  fold (run_from (step (run a) (Create p)) b). apply lists_kept. cbn [step]. unfold create.
  destruct (lists (run a) p) eqn:E; [congruence|]. cbn [lists]. now rewrite upd_same.
Qed.

Lemma view_since_attach h0 h1 o h2 h3 p ds :
  known (h0 ++ h1) p -> reports p o ->
  ~ In Detach (h1 ++ o :: h2 ++ FlushOne p :: h3) ->
  ~ In (Unmap p) (h0 ++ h1 ++ o :: h2 ++ FlushOne p :: h3) ->
  untouched p h3 ->
  current (run (h0 ++ Attach :: h1 ++ o :: h2 ++ FlushOne p :: h3)) p ds ->
  view (sent (run (h0 ++ Attach :: h1 ++ o :: h2 ++ FlushOne p :: h3))) p ds.
Proof.
  intros K R ND NU U C. apply current_iff in C as ->.
  set (H := h0 ++ Attach :: h1 ++ o :: h2 ++ FlushOne p :: h3).
  assert (EQ : H = (h0 ++ Attach :: h1 ++ [o]) ++ (h2 ++ FlushOne p :: h3)).
  { unfold H. rewrite <- app_assoc. cbn. rewrite <- app_assoc. reflexivity. }
  set (s1 := run (h0 ++ Attach :: h1 ++ [o])).
  assert (E0 : s1 = step (run (h0 ++ Attach :: h1)) o).
  { unfold s1. rewrite <- run_snoc. f_equal. rewrite <- app_assoc. reflexivity. }
  assert (D : dirty (at_ s1 p) = true).
  { rewrite E0. apply dirty_report; [exact R|]. apply known_lists. unfold known in *. rewrite in_app_iff in *. cbn. tauto. }
  assert (EN : listening s1 = true /\ mapped s1 p = true).
  { unfold s1. rewrite run_app. change (run_from (run h0) (Attach :: h1 ++ [o])) with (run_from (step (run h0) Attach) (h1 ++ [o])).
    destruct (env_run (h1 ++ [o]) (step (run h0) Attach) p) as (A & B & _); [| |reflexivity| |auto].
    - intros HI. apply ND. rewrite in_app_iff in *. cbn in *. tauto.
    - intros HI. apply NU. rewrite !in_app_iff in *. cbn in *. tauto.
    - cbn [step mapped]. apply mapped_run; [|reflexivity]. intros HI. apply NU. rewrite !in_app_iff. tauto. }
  destruct EN as [EL EM]. rewrite EQ, run_app. fold s1.
  destruct (env_run (h2 ++ FlushOne p :: h3) s1 p) as (_ & _ & S); auto.
  - intros HI. apply ND. rewrite in_app_iff. cbn. tauto.
  - intros HI. apply NU. rewrite !in_app_iff. cbn. tauto.
  - destruct S as [S|S]; [now left| |exact S].
    rewrite run_from_app in S. cbn [run_from fold_left] in S.
    fold (run_from (step (run_from s1 h2) (FlushOne p)) h3) in S.
    rewrite clean_run in S; [discriminate|assumption|apply flush_clean].
Qed.

(** nothing published without a change *)
Lemma flush_silent h1 h2 p : untouched p h2 ->
  run (h1 ++ FlushOne p :: h2 ++ [FlushOne p]) = run (h1 ++ FlushOne p :: h2).
Proof.
  intros U. assert (E : h1 ++ FlushOne p :: h2 ++ [FlushOne p] = (h1 ++ FlushOne p :: h2) ++ [FlushOne p]).
  { now rewrite <- app_assoc. }
  rewrite E, run_snoc. set (s := run (h1 ++ FlushOne p :: h2)).
  assert (D : dirty (at_ s p) = false).
  { unfold s. rewrite run_app. cbn [run_from fold_left]. fold (run_from (step (run h1) (FlushOne p)) h2).
    apply clean_run; [assumption|apply flush_clean]. }
  cbn [step]. unfold flush_one, at_ in *. destruct (lists s p) as [l|]; [now rewrite D|reflexivity].
Qed.

(** ** the content: what was added since the last clear *)
Lemma items_add s p d t : lists s p <> None -> items (at_ (step s (Add p d t)) p) = items (at_ s p) ++ [d].
Proof. intros L. unfold at_. cbn [step]. rewrite on_list_same. destruct (lists s p); [reflexivity|congruence]. Qed.
Lemma items_clear s p t : items (at_ (step s (Clear p t)) p) = [].
Proof. unfold at_. cbn [step]. rewrite on_list_same. destruct (lists s p); reflexivity. Qed.

Fixpoint adds (p : path) (h : list op) : list diag :=
  match h with
  | Add q d _ :: h' => if q =? p then d :: adds p h' else adds p h'
  | _ :: h' => adds p h'
  | [] => []
  end.

Lemma adds_run h : forall s p, lists s p <> None ->
  (forall t, ~ In (Clear p t) h) -> (forall r t, In (DeleteRelated r t) h -> sfile r <> p) ->
  items (at_ (run_from s h) p) = items (at_ s p) ++ adds p h.
Proof.
  induction h as [|o h IH]; intros s p L NC NR; [cbn; now rewrite app_nil_r|].
  cbn [run_from fold_left]. fold (run_from (step s o) h). rewrite IH.
  - destruct o as [q|q d t|q t|r t|q| | |q|q]; cbn [adds]; try (destruct (step_untouched s (FlushOne q) p) as (-> & _ & _); [easy|reflexivity]); try reflexivity.
    + cbn [step]. unfold create. destruct (lists s q) eqn:E; [reflexivity|]. unfold at_. cbn [lists].
      destruct (Nat.eq_dec p q) as [->|N]; [congruence|now rewrite upd_other].
    + destruct (Nat.eqb_spec q p) as [->|N].
      * rewrite items_add by assumption. now rewrite <- app_assoc.
      * destruct (step_untouched s (Add q d t) p) as (-> & _ & _); [exact N|reflexivity].
    + destruct (step_untouched s (Clear q t) p) as (-> & _ & _); [|reflexivity]. cbn. intros ->. apply (NC t). now left.
    + destruct (step_untouched s (DeleteRelated r t) p) as (-> & _ & _); [|reflexivity]. cbn. apply (NR r t). now left.
  - apply (lists_kept [o]). exact L.
  - intros t H. apply (NC t). now right.
  - intros r t H. apply (NR r t). now right.
Qed.

(** ** C12 *)
Lemma span_eqb_spec a b : span_eqb a b = true <-> a = b.
Proof.
  unfold span_eqb. rewrite !andb_true_iff, !Nat.eqb_eq. destruct a, b; cbn. split; [intros [[-> ->] ->]; reflexivity|].
  now intros [= -> -> ->].
Qed.

Lemma without_refl {A} (R : A -> Prop) l : without R l l.
Proof. induction l; constructor; auto. Qed.
Lemma without_trans {A} (R : A -> Prop) a b c : without R a b -> without R b c -> without R a c.
Proof.
  intros H. revert c. induction H as [|x l l' H IH|x l l' Hx H IH]; intros c Hc.
  - exact Hc.
  - inversion Hc; subst; [apply w_keep; auto|apply w_drop; auto].
  - apply w_drop; auto.
Qed.
Lemma without_mono {A} (R S : A -> Prop) a b : (forall x, R x -> S x) -> without R a b -> without S a b.
Proof. intros M. induction 1; [constructor|apply w_keep|apply w_drop]; auto. Qed.
Lemma without_sub {A} (R : A -> Prop) a b : without R a b -> forall x, In x b -> In x a.
Proof. induction 1; cbn; intuition. Qed.
Lemma without_nodup {A B} (f : A -> B) (R : A -> Prop) a b : without R a b -> NoDup (map f a) -> NoDup (map f b).
Proof.
  induction 1 as [|x l l' H IH|x l l' Hx H IH]; cbn; intros N; [constructor| |inversion N; auto].
  inversion N; subst. constructor; auto. intros HI. apply in_map_iff in HI as (y & E & HI).
  apply H2. rewrite <- E. apply in_map. eapply without_sub; eauto.
Qed.

Lemma remove_first_without r ds ds' : remove_first r ds = Some ds' -> without (fun d => drange d = r) ds ds'.
Proof.
  revert ds'. induction ds as [|d ds IH]; intros ds'; cbn; [discriminate|].
  destruct (span_eqb (drange d) r) eqn:E.
  - intros [= <-]. apply w_drop; [now apply span_eqb_spec|apply without_refl].
  - destruct (remove_first r ds) as [x|]; [|discriminate]. intros [= <-]. apply w_keep. now apply IH.
Qed.
Lemma remove_first_none r ds : remove_first r ds = None -> forall d, In d ds -> drange d <> r.
Proof.
  induction ds as [|d ds IH]; cbn; [easy|]. destruct (span_eqb (drange d) r) eqn:E; [discriminate|].
  destruct (remove_first r ds); [discriminate|]. intros _ x [<-|H]; [|now apply IH].
  intros X. apply span_eqb_spec in X. congruence.
Qed.
Lemma remove_first_nodup r ds ds' : NoDup (map drange ds) -> remove_first r ds = Some ds' -> forall d, In d ds' -> drange d <> r.
Proof.
  revert ds'. induction ds as [|d ds IH]; intros ds' N; cbn; [discriminate|]. inversion N; subst.
  destruct (span_eqb (drange d) r) eqn:E.
  - intros [= <-] x H X. apply span_eqb_spec in E. apply H1. rewrite E, <- X. now apply in_map.
  - destruct (remove_first r ds) as [y|]; [|discriminate]. intros [= <-] x [<-|H]; [|eapply IH; eauto].
    intros X. apply span_eqb_spec in X. congruence.
Qed.

Definition dels (ts : nat -> time) (rs : list span) : list op :=
  map (fun ir => DeleteRelated (snd ir) (ts (S (fst ir)))) (combine (seq 0 (List.length rs)) rs).
Definition all_dels (rs : list span) (h : list op) : Prop :=
  forall o, In o h -> exists r t, o = DeleteRelated r t /\ In r rs.
Lemma dels_all ts rs : all_dels rs (dels ts rs).
Proof.
  intros o H. unfold dels in H. apply in_map_iff in H as ([i r] & <- & H). exists r, (ts (S i)). split; [reflexivity|].
  now apply in_combine_r in H.
Qed.
Lemma combine_snd {A B} (a : list A) : forall (b : list B), List.length a = List.length b -> forall r, In r b -> exists i, In (i, r) (combine a b).
Proof.
  induction a as [|x a IH]; intros [|y b] E r; cbn; [easy|easy|easy|]. intros [<-|H]; [exists x; now left|].
  destruct (IH b) with (r := r) as [i Hi]; [cbn in E; lia|exact H|]. exists i. now right.
Qed.
Lemma dels_complete ts rs r : In r rs -> exists t, In (DeleteRelated r t) (dels ts rs).
Proof.
  intros H. destruct (combine_snd (seq 0 (List.length rs)) rs) with (r := r) as [i Hi]; [now rewrite seq_length|exact H|].
  exists (ts (S i)). unfold dels. apply in_map_iff. exists (i, r). split; auto.
Qed.

Lemma step_del s r t q : lists (step s (DeleteRelated r t)) q =
  if q =? sfile r then option_map (l_delete_related r t) (lists s q) else lists s q.
Proof.
  cbn [step]. destruct (Nat.eqb_spec q (sfile r)) as [->|N]; [apply on_list_same|now apply on_list_other].
Qed.
Lemma at_del s r t q : at_ (step s (DeleteRelated r t)) q =
  if q =? sfile r then l_delete_related r t (at_ s q) else at_ s q.
Proof. unfold at_. rewrite step_del. destruct (q =? sfile r), (lists s q); reflexivity. Qed.

Lemma dels_run rs h : all_dels rs h -> forall s q,
  without (fun d => In (drange d) rs /\ sfile (drange d) = q) (items (at_ s q)) (items (at_ (run_from s h) q)).
Proof.
  induction h as [|o h IH]; intros A s q; [apply without_refl|].
  cbn [run_from fold_left]. fold (run_from (step s o) h). eapply without_trans; [|apply IH; intros o' H; apply A; now right].
  destruct (A o) as (r & t & -> & HR); [now left|]. rewrite at_del. destruct (Nat.eqb_spec q (sfile r)) as [->|N]; [|apply without_refl].
  unfold l_delete_related. destruct (remove_first r (items (at_ s (sfile r)))) eqn:E; [|apply without_refl].
  cbn [items]. eapply without_mono; [|apply remove_first_without; exact E]. now intros x ->.
Qed.

Lemma dels_frame rs h : all_dels rs h -> forall s q, (forall r, In r rs -> sfile r <> q) -> lists (run_from s h) q = lists s q.
Proof.
  induction h as [|o h IH]; intros A s q N; [reflexivity|].
  cbn [run_from fold_left]. fold (run_from (step s o) h). rewrite IH; [|intros o' H; apply A; now right|exact N].
  destruct (A o) as (r & t & -> & HR); [now left|]. rewrite step_del. destruct (Nat.eqb_spec q (sfile r)) as [->|M]; [|reflexivity].
  exfalso. now apply (N r).
Qed.

Lemma dels_gone rs h : all_dels rs h -> forall s r t, In (DeleteRelated r t) h ->
  NoDup (map drange (items (at_ s (sfile r)))) ->
  forall d, In d (items (at_ (run_from s h) (sfile r))) -> drange d <> r.
Proof.
  induction h as [|o h IH]; intros A s r t HI N d HD; [easy|].
  cbn [run_from fold_left] in HD. fold (run_from (step s o) h) in HD.
  assert (A' : all_dels rs h) by (intros o' H; apply A; now right).
  destruct HI as [->|HI].
  - assert (H0 := dels_run rs h A' (step s (DeleteRelated r t)) (sfile r)).
    apply (without_sub _ _ _ H0) in HD. rewrite at_del, Nat.eqb_refl in HD.
    unfold l_delete_related in HD. destruct (remove_first r (items (at_ s (sfile r)))) as [ds|] eqn:E.
    + cbn [items] in HD. eapply remove_first_nodup; eauto.
    + eapply remove_first_none; eauto.
  - eapply (IH A' (step s o)); eauto.
    destruct (A o) as (r' & t' & -> & HR); [now left|]. rewrite at_del.
    destruct (Nat.eqb_spec (sfile r) (sfile r')) as [E|M]; [|exact N].
    unfold l_delete_related. rewrite E in *. destruct (remove_first r' (items (at_ s (sfile r')))) eqn:F; [|exact N].
    cbn [items]. eapply without_nodup; [apply remove_first_without; exact F|exact N].
Qed.

Lemma names_flat ds r : names ds r <-> In r (flat_map drelated ds).
Proof. unfold names. rewrite in_flat_map. firstorder. Qed.

Lemma clear_path_eq s p ts : clear_path s p ts =
  match lists s p with
  | Some l => run_from (step s (Clear p (ts 0))) (dels ts (flat_map drelated (items l)))
  | None => s
  end.
Proof. unfold clear_path, clear_ops. destruct (lists s p); reflexivity. Qed.

Lemma clear_self s p ts : current (clear_path s p ts) p [].
Proof.
  apply current_iff. symmetry. rewrite clear_path_eq. destruct (lists s p) as [l|] eqn:E.
  - assert (H := dels_run _ _ (dels_all ts (flat_map drelated (items l))) (step s (Clear p (ts 0))) p).
    rewrite items_clear in H. set (z := items _) in *. clearbody z. now inversion H.
  - unfold at_. now rewrite E.
Qed.

Lemma clear_other s p ts q ds prev : q <> p -> current s p prev -> current s q ds ->
  exists ds', current (clear_path s p ts) q ds' /\
    without (fun d => names prev (drange d) /\ sfile (drange d) = q) ds ds'.
Proof.
  intros N CP CQ. apply current_iff in CP, CQ. subst. exists (items (at_ (clear_path s p ts) q)).
  split; [now apply current_iff|]. rewrite clear_path_eq. destruct (lists s p) as [l|] eqn:E.
  - assert (AP : at_ s p = l) by (unfold at_; now rewrite E). rewrite AP. assert (H := dels_run _ _ (dels_all ts (flat_map drelated (items l))) (step s (Clear p (ts 0))) q).
    destruct (step_untouched s (Clear p (ts 0)) q) as (E1 & _ & _); [cbn; congruence|]. rewrite E1 in H.
    eapply without_mono; [|exact H]. cbn beta. intros x. now rewrite names_flat.
  - apply without_refl.
Qed.

Lemma clear_frame s p ts q prev : q <> p -> current s p prev -> (forall r, names prev r -> sfile r <> q) ->
  lists (clear_path s p ts) q = lists s q.
Proof.
  intros N CP H. apply current_iff in CP. subst. rewrite clear_path_eq. unfold at_ in H. destruct (lists s p) as [l|] eqn:E; [|reflexivity].
  rewrite (dels_frame _ _ (dels_all ts (flat_map drelated (items l)))).
  - cbn [step]. now rewrite on_list_other.
  - intros r HR. apply H. now apply names_flat.
Qed.

Lemma clear_related s p ts q ds prev r ds' : q <> p -> current s p prev -> current s q ds -> NoDup (map drange ds) ->
  names prev r -> sfile r = q -> current (clear_path s p ts) q ds' -> forall d, In d ds' -> drange d <> r.
Proof.
  intros N CP CQ ND HN <- C'. apply current_iff in CP, CQ, C'. subst.
  rewrite clear_path_eq. unfold at_ in HN at 1. destruct (lists s p) as [l|] eqn:E; [|destruct HN as (? & [] & _)].
  apply names_flat in HN. destruct (dels_complete ts _ _ HN) as [t Ht].
  intros d HD. eapply (dels_gone _ _ (dels_all ts _)); [exact Ht| |exact HD].
  destruct (step_untouched s (Clear p (ts 0)) (sfile r)) as (E1 & _ & _); [cbn; congruence|]. now rewrite E1.
Qed.

(** ** C13 *)
Lemma times_app a b : times (a ++ b) = times a ++ times b.
Proof. induction a as [|o a IH]; [reflexivity|]. destruct o; cbn; now rewrite IH. Qed.

Lemma id_step s o p :
  (items (at_ (step s o) p) = items (at_ s p) /\ resultId (at_ (step s o) p) = resultId (at_ s p)) \/
  exists t, resultId (at_ (step s o) p) = Some t /\ In t (times [o]).
Proof.
  assert (K : forall q f t, In t (times [o]) -> (forall l, f l = l \/ resultId (f l) = Some t) -> step s o = on_list q f s ->
    (items (at_ (step s o) p) = items (at_ s p) /\ resultId (at_ (step s o) p) = resultId (at_ s p)) \/
    exists t, resultId (at_ (step s o) p) = Some t /\ In t (times [o])).
  { intros q f t Ht Hf E. rewrite E. unfold at_. destruct (Nat.eq_dec p q) as [->|N].
    - rewrite on_list_same. destruct (lists s q) as [l|]; [|now left]. cbn [option_map].
      destruct (Hf l) as [->|H]; [now left|right; eauto].
    - rewrite on_list_other by assumption. now left. }
  destruct o as [q|q d t|q t|r t|q| | |q|q]; try (left; split; reflexivity).
  - left. unfold at_. cbn [step]. unfold create. destruct (lists s q) eqn:E; [auto|]. cbn [lists].
    destruct (Nat.eq_dec p q) as [->|N]; [rewrite upd_same, E; auto|rewrite upd_other by assumption; auto].
  - apply (K q (l_add d t) t); cbn; auto.
  - apply (K q (l_clear t) t); cbn; auto.
  - apply (K (sfile r) (l_delete_related r t) t); cbn; auto.
    intros l. unfold l_delete_related. destruct (remove_first r (items l)); auto.
  - left. destruct (step_untouched s (FlushOne q) p) as (A & B & _); [easy|auto].
Qed.

Lemma id_run h : forall s p,
  (items (at_ (run_from s h) p) = items (at_ s p) /\ resultId (at_ (run_from s h) p) = resultId (at_ s p)) \/
  exists t, resultId (at_ (run_from s h) p) = Some t /\ In t (times h).
Proof.
  induction h as [|o h IH]; intros s p; [left; auto|]. cbn [run_from fold_left]. fold (run_from (step s o) h).
  assert (T : times (o :: h) = times [o] ++ times h) by apply (times_app [o] h).
  destruct (IH (step s o) p) as [[A B]|(t & A & B)].
  - destruct (id_step s o p) as [[C D]|(t & C & D)].
    + left. split; congruence.
    + right. exists t. split; [congruence|]. rewrite T. apply in_or_app. auto.
  - right. exists t. split; [exact A|]. rewrite T. apply in_or_app. auto.
Qed.

Lemma id_known h p t : resultId (at_ (run h) p) = Some t -> In t (times h).
Proof.
  intros H. destruct (id_run h init p) as [[_ A]|(t' & A & B)].
  - unfold run in H. rewrite A in H. discriminate.
  - unfold run in H. congruence.
Qed.

Lemma get_at s p prev : exists a, get s p prev = (a, resultId (at_ s p)) /\
  (a = Some (items (at_ s p)) \/ (a = None /\ prev = Some (resultId (at_ s p)))).
Proof.
  unfold get, at_. destruct (lists s p) as [l|]; [|eexists; split; [reflexivity|now left]].
  unfold l_get. destruct prev as [pr|]; [|eexists; split; [reflexivity|now left]].
  destruct (resultId l) as [a|], pr as [b|]; try (eexists; split; [reflexivity|now left]).
  - destruct (Nat.eqb_spec a b) as [->|]; eexists; split; try reflexivity; auto.
  - eexists; split; [reflexivity|auto].
Qed.

Lemma unchanged_truthful h1 h2 p ds id id' :
  NoDup (times (h1 ++ h2)) ->
  get (run h1) p None = (Some ds, id) ->
  get (run (h1 ++ h2)) p (Some id) = (None, id') ->
  get (run (h1 ++ h2)) p None = (Some ds, id).
Proof.
  intros ND G1 G2.
  destruct (get_at (run h1) p None) as (a & Ea & [->|[_ X]]); [|discriminate]. rewrite Ea in G1. injection G1 as <- <-.
  destruct (get_at (run (h1 ++ h2)) p (Some (resultId (at_ (run h1) p)))) as (b & Eb & [->|[-> X]]).
  { rewrite Eb in G2. discriminate. }
  injection X as X.
  destruct (get_at (run (h1 ++ h2)) p None) as (c & Ec & [->|[_ Y]]); [|discriminate]. rewrite Ec.
  rewrite <- X in *. f_equal.
  rewrite run_app in *. destruct (id_run h2 (run h1) p) as [[A _]|(t & A & B)]; [now rewrite A|exfalso].
  rewrite A in X. assert (In t (times h1)) by now apply (id_known h1 p).
  rewrite times_app in ND. clear -ND H B.
  induction (times h1) as [|x l IH]; [easy|]. cbn in ND. inversion ND; subst. destruct H as [->|H]; [apply H2, in_or_app; auto|auto].
Qed.

Lemma unchanged_when_untouched h1 h2 p ds id : lists (run h1) p <> None ->
  untouched p h2 -> get (run h1) p None = (Some ds, id) -> get (run (h1 ++ h2)) p (Some id) = (None, id).
Proof.
  intros L U G.
  destruct (get_at (run h1) p None) as (a & Ea & [->|[_ X]]); [|discriminate]. rewrite Ea in G. injection G as <- <-.
  assert (L' : lists (run (h1 ++ h2)) p <> None) by (rewrite run_app; now apply lists_kept).
  assert (R : resultId (at_ (run (h1 ++ h2)) p) = resultId (at_ (run h1) p)).
  { rewrite run_app. clear -U. generalize (run h1). induction h2 as [|o h IH]; intros s; [reflexivity|].
    cbn [run_from fold_left]. fold (run_from (step s o) h). rewrite IH; [|intros o' H; apply U; now right].
    apply (step_untouched s o p). apply U. now left. }
  rewrite <- R. unfold get, at_. destruct (lists (run (h1 ++ h2)) p) as [l|]; [|congruence].
  unfold l_get. destruct (resultId l); [now rewrite Nat.eqb_refl|reflexivity].
Qed.

(** ** C14 *)
Lemma is_space_spec c : is_space c = true <-> space c.
Proof.
  unfold is_space, space. rewrite orb_true_iff, andb_true_iff, Nat.eqb_eq, !Nat.leb_le. cbn.
  split; intros H; [|intuition lia].
  assert (nat_of_ascii c = 9 \/ nat_of_ascii c = 10 \/ nat_of_ascii c = 11 \/ nat_of_ascii c = 12 \/ nat_of_ascii c = 13 \/ nat_of_ascii c = 32) by lia.
  intuition.
Qed.

Lemma cut_eq_spec s k v : cut_eq s = Some (k, v) <-> s = k ++ eqc :: v /\ ~ In eqc k.
Proof.
  revert k v. induction s as [|c s IH]; intros k v; cbn [cut_eq].
  - split; [discriminate|]. intros [H _]. destruct k; discriminate.
  - destruct (Ascii.eqb_spec c eqc) as [->|N].
    + split; [intros [= <- <-]; split; [reflexivity|intros []]|]. intros [H NI].
      destruct k as [|x k]; cbn in H; [congruence|]. injection H as <- _. exfalso. apply NI. now left.
    + destruct (cut_eq s) as [[k0 v0]|] eqn:E.
      * specialize (proj1 (IH k0 v0) eq_refl). intros [E1 N1]. split.
        -- intros [= <- <-]. split; [cbn; congruence|]. cbn. intros [X|X]; [congruence|auto].
        -- intros [H NI]. destruct k as [|x k]; cbn in H; [congruence|]. injection H as <- H.
           assert (Some (k0, v0) = Some (k, v)) by (apply IH; split; [exact H|]; intros X; apply NI; now right). congruence.
      * split; [discriminate|]. intros [H NI]. destruct k as [|x k]; cbn in H; [congruence|]. injection H as <- H.
        assert (None = Some (k, v)) by (apply IH; split; [exact H|]; intros X; apply NI; now right). discriminate.
Qed.

Lemma suppresses_spec cat v : suppresses cat v = true <-> v = b_ "Wnoerror=" ++ cat \/ v = b_ "Wnoerror=all".
Proof.
  unfold suppresses. destruct (cut_eq v) as [[k v']|] eqn:E.
  - apply cut_eq_spec in E as [-> N]. rewrite andb_true_iff, orb_true_iff, !beq_eq. split.
    + intros [-> [->| ->]]; [left|right]; reflexivity.
    + intros H. assert (cut_eq (k ++ eqc :: v') = Some (k, v')) by (apply cut_eq_spec; auto).
      destruct H as [H|H]; rewrite H in H0.
      * cbn in H0. injection H0 as <- <-. auto.
      * cbn in H0. injection H0 as <- <-. auto.
  - split; [discriminate|]. intros [-> | ->]; cbn in E; discriminate.
Qed.

Definition nosp (w : bytes) : Prop := forall c, In c w -> ~ space c.

(** words of [rev cur ++ s] where [cur] is the unfinished current word *)
Lemma fields_from_spec s : forall cur w, nosp cur ->
  (In w (fields_from cur s) <-> word (rev cur ++ s) w).
Proof.
  induction s as [|c s IH]; intros cur w NS.
  - cbn [fields_from]. rewrite app_nil_r. destruct cur as [|x cur].
    + split; [easy|]. intros (N & _ & a & b & E & _). symmetry in E. cbn in E. apply app_eq_nil in E as [_ E]. apply app_eq_nil in E as [E _]. congruence.
    + set (cw := rev (x :: cur)) in *. assert (NC : nosp cw) by (intros y Hy; apply in_rev in Hy; now apply NS).
      split.
      * intros [<-|[]]. split; [unfold cw; cbn; intros H; symmetry in H; now apply app_cons_not_nil in H|]. split; [exact NC|].
        exists [], []. rewrite app_nil_r. auto.
      * intros (N & NW & a & b & E & HA & HB). left.
        assert (a = []) as ->. { destruct HA as [->|(a' & y & -> & Sy)]; [reflexivity|]. exfalso. apply (NC y); [|exact Sy]. rewrite E, !in_app_iff. cbn. tauto. }
        assert (b = []) as ->. { destruct HB as [->|(y & b' & -> & Sy)]; [reflexivity|]. exfalso. apply (NC y); [|exact Sy]. rewrite E, !in_app_iff. cbn. tauto. }
        now rewrite app_nil_r in E.
  - cbn [fields_from]. destruct (is_space c) eqn:SC.
    + apply is_space_spec in SC.
      assert (W : word (rev cur ++ c :: s) w <-> (cur <> [] /\ w = rev cur) \/ word s w).
      { set (cw := rev cur). assert (NC : nosp cw) by (intros y Hy; apply in_rev in Hy; now apply NS).
        split.
        - intros (N & NW & a & b & E & HA & HB).
          (* compare a with cw *)
          assert (D : (exists m, a = cw ++ c :: m /\ s = m ++ w ++ b) \/ (exists m, cw = a ++ m /\ m ++ c :: s = w ++ b)).
          { clear -E. revert a E. induction cw as [|x cw IHc]; intros a E.
            - destruct a as [|y a]; [right; exists []; auto|]. cbn in E. injection E as <- E. left. exists a. auto.
            - destruct a as [|y a]; [right; exists (x :: cw); auto|]. cbn in E. injection E as <- E.
              destruct (IHc a E) as [(m & -> & ->)|(m & -> & H)]; [left; exists m; auto|right; exists m; auto]. }
          destruct D as [(m & -> & ->)|(m & Em & H)].
          + right. split; [exact N|]. split; [exact NW|]. exists m, b. split; [reflexivity|]. split; [|exact HB].
            destruct m as [|y m] using rev_ind; [now left|right]. destruct HA as [HA|(a' & z & HA & Sz)]; [now destruct cw|].
            rewrite app_comm_cons, app_assoc in HA. apply app_inj_tail in HA as [_ <-]. exists m, y. auto.
          + left. assert (a = []) as ->.
            { destruct HA as [->|(a' & y & -> & Sy)]; [reflexivity|]. exfalso. apply (NC y); [|exact Sy]. rewrite Em, !in_app_iff. cbn. tauto. }
            cbn in Em. subst m. assert (w = cw /\ b = c :: s) as [-> ->].
            { assert (NW' : forall y, In y w -> ~ space y) by exact NW. clear -NW' NC HB H SC.
              revert w NW' H. induction cw as [|x cw IHc]; intros w NW H.
              - destruct w as [|y w]; [auto|]. cbn in H. injection H as <- H. exfalso. apply (NW c); [now left|exact SC].
              - destruct w as [|y w].
                + cbn in H. destruct HB as [->|(y & b' & -> & Sy)]; [discriminate|]. injection H as <- _. exfalso. apply (NC x); [now left|exact Sy].
                + cbn in H. injection H as <- H. destruct (IHc ltac:(intros z Hz; apply NC; now right) w ltac:(intros z Hz; apply NW; now right) H) as [-> ->]. auto. }
            split; [|reflexivity]. unfold cw in N. intros ->. now apply N.
        - intros [[NE ->]|(N & NW & a & b & -> & HA & HB)].
          + split; [intros H; apply NE; rewrite <- (rev_involutive cur); unfold cw in H; now rewrite H|]. split; [exact NC|].
            exists [], (c :: s). split; [reflexivity|]. split; [now left|right; eauto].
          + split; [exact N|]. split; [exact NW|]. exists (cw ++ c :: a), b. split; [rewrite <- app_assoc; reflexivity|]. split; [|exact HB].
            right. destruct HA as [->|(a' & y & -> & Sy)]; [exists cw, c; auto|]. exists (cw ++ c :: a'), y. split; [rewrite <- app_assoc; reflexivity|exact Sy]. }
      rewrite W. assert (I0 := IH [] w ltac:(intros ? [])). cbn [rev app] in I0.
      destruct cur as [|x cur]; [rewrite I0; intuition|]. cbn [In]. rewrite I0. intuition (try congruence).
    + assert (NSC : ~ space c) by (rewrite <- is_space_spec; congruence).
      rewrite IH by (intros y [<-|Hy]; auto). cbn [rev]. now rewrite <- app_assoc.
Qed.
Lemma fields_spec s w : In w (fields s) <-> word s w.
Proof. apply (fields_from_spec s []). intros ? []. Qed.

Lemma elevate_spec dbg cat sev :
  elevate dbg cat sev = Error <-> sev = Error \/ (sev = Warning /\ cat <> [] /\ ~ suppressed dbg cat).
Proof.
  destruct sev; cbn [elevate].
  - tauto.
  - destruct cat as [|c cat]; [split; [discriminate|]; intros [H|(_ & H & _)]; congruence|].
    destruct (match dbg with Some s => existsb (suppresses (c :: cat)) (fields s) | None => false end) eqn:E.
    + split; [discriminate|]. intros [H|(_ & _ & H)]; [discriminate|]. exfalso. apply H.
      destruct dbg as [s|]; [|discriminate]. exists s. split; [reflexivity|].
      apply existsb_exists in E as (w & Hw & S). apply fields_spec in Hw. apply suppresses_spec in S as [-> | ->]; auto.
    + split; [intros _|auto]. right. split; [reflexivity|]. split; [discriminate|]. intros (s & -> & H).
      assert (existsb (suppresses (c :: cat)) (fields s) = true); [|congruence].
      apply existsb_exists. destruct H as [H|H]; apply fields_spec in H; eexists; (split; [exact H|]); apply suppresses_spec; auto.
  - split; [discriminate|]. intros [H|(H & _)]; discriminate.
Qed.

Lemma elevate_keeps dbg cat sev : elevate dbg cat sev = Error \/ elevate dbg cat sev = sev.
Proof. destruct sev; cbn; auto. destruct cat; auto. destruct (match dbg with Some _ => _ | None => _ end); auto. Qed.

Lemma elevate_idem dbg cat sev : elevate dbg cat (elevate dbg cat sev) = elevate dbg cat sev.
Proof.
  destruct sev; cbn; auto. destruct cat as [|c cat]; [reflexivity|].
  destruct (match dbg with Some _ => _ | None => _ end) eqn:E; cbn; [now rewrite E|reflexivity].
Qed.

Lemma report_all_const dbg cat n : forall sev,
  report_all cat sev (repeat dbg n) = repeat (elevate dbg cat sev) n.
Proof.
  induction n as [|n IH]; intros sev; [reflexivity|]. cbn [repeat report_all]. cbv zeta. f_equal.
  now rewrite IH, elevate_idem.
Qed.

Lemma lists_unknown h p : ~ known h p -> lists (run h) p = None.
Proof.
  unfold run. assert (G : forall s, lists s p = None -> ~ known h p -> lists (run_from s h) p = None); [|now apply G].
  induction h as [|o h IH]; intros s L N; [exact L|]. cbn [run_from fold_left]. fold (run_from (step s o) h).
  apply IH; [|unfold known in *; cbn in N; tauto].
  assert (K : forall q f, lists (on_list q f s) p = None).
  { intros q f. destruct (Nat.eq_dec p q) as [->|M]; [rewrite on_list_same; now rewrite L|now rewrite on_list_other]. }
  destruct o as [q|q d t|q t|r t|q| | |q|q]; cbn [step]; auto.
  - unfold create. destruct (lists s q) eqn:E; [auto|]. cbn [lists].
    destruct (Nat.eq_dec p q) as [->|M]; [exfalso; apply N; now left|now rewrite upd_other].
  - unfold flush_one. destruct (lists s q) as [l|] eqn:E; [destruct (dirty l)|]; auto. cbn [lists].
    rewrite upd_other; [auto|congruence].
Qed.
