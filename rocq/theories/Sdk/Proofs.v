From Coq Require Import Ascii String Permutation.
From Verif Require Import Base Strs Paths.
From Verif.Sdk Require Import Model Spec.
Open Scope list_scope.

(** ** Topological sort *)
Lemma seen_in_spec p l : seen_in p l = true <-> In p l.
Proof.
  unfold seen_in. rewrite existsb_exists. split.
  - intros (x & I & E). apply beq_eq in E. now subst.
  - intros I. exists p. split; [assumption|apply beq_refl].
Qed.
Lemma seen_out_spec p l : seen_in p l = false <-> ~ In p l.
Proof. rewrite <- seen_in_spec. destruct (seen_in p l); split; congruence. Qed.

Lemma topo_S idx n rs sorted seen : topo idx (S n) rs sorted seen =
  match rs with
  | [] => Sorted sorted seen
  | None :: _ => NilPanic
  | Some r :: rest =>
      if seen_in (f_path r) seen then topo idx (S n) rest sorted seen
      else match topo idx n (map idx (f_imports r)) sorted (f_path r :: seen) with
           | Sorted s' e' => topo idx (S n) rest (s' ++ [r]) e'
           | o => o
           end
  end.
Proof. destruct rs as [|[r|] rest]; reflexivity. Qed.

Lemma index_some fs p f : index fs p = Some f -> In f fs /\ f_path f = p.
Proof.
  unfold index. intros E. apply find_some in E as [I E]. apply beq_eq in E.
  split; [now apply in_rev|assumption].
Qed.
Lemma index_none fs p : index fs p = None <-> ~ In p (paths fs).
Proof.
  unfold index, paths. split.
  - intros E I. apply in_map_iff in I as (f & <- & I).
    apply find_none with (x := f) in E; [|now apply -> in_rev]. now rewrite beq_refl in E.
  - intros N. destruct (find _ _) eqn:E; [|reflexivity].
    apply find_some in E as [I E]. apply beq_eq in E. exfalso. apply N. subst p.
    apply in_map. now apply in_rev.
Qed.

Lemma reaches_trans fs p q r : reaches fs p q -> reaches fs q r -> reaches fs p r.
Proof. induction 1; [easy|]. intros. eapply reach_step; eauto. Qed.
Lemma reaches_one fs f p : In f fs -> In p (f_imports f) -> reaches fs (f_path f) p.
Proof. intros. eapply reach_step; eauto. constructor. Qed.

Section Dfs.
Variable fs : list file.
Let idx := index fs.

(** The state: [stack] are the files being visited; what is seen is what is
    sorted or on the stack. *)
Definition good (sorted : list file) (stack seen : list bytes) : Prop :=
  NoDup (paths sorted ++ stack) /\ (forall p, In p seen <-> In p (paths sorted ++ stack)) /\
  incl sorted fs.

(** one step of "comes after": an import is earlier or leads back *)
Definition fine (l1 : list file) (f : file) : Prop :=
  forall p, In p (f_imports f) -> In p (paths l1) \/ reaches fs p (f_path f).

Lemma NoDup_add {A} (a : list A) x b : NoDup (a ++ b) -> ~ In x (a ++ b) -> NoDup (a ++ x :: b).
Proof. intros N I. apply NoDup_Add with (a := x) (l := a ++ b); [apply Add_app|now split]. Qed.
Lemma paths_app a b : paths (a ++ b) = paths a ++ paths b. Proof. apply map_app. Qed.

Lemma topo_inv n : forall rs sorted stack seen s' e',
  good sorted stack seen ->
  (forall f, In (Some f) rs -> In f fs) ->
  (forall f q, In (Some f) rs -> In q stack -> reaches fs q (f_path f)) ->
  topo idx n rs sorted seen = Sorted s' e' ->
  good s' stack e' /\
  (forall o, In o rs -> exists f, o = Some f /\ In (f_path f) e') /\
  incl seen e' /\
  exists ext, s' = sorted ++ ext /\
    (forall l1 f l2, ext = l1 ++ f :: l2 -> fine (sorted ++ l1) f) /\
    (forall f p, In f ext -> In p (f_imports f) -> In p (paths fs)).
Proof.
  induction n; [discriminate|].
  induction rs as [|[r|] rest IH]; intros sorted stack seen s' e' G In_ Re; rewrite topo_S.
  - intros [= <- <-]. split; [assumption|]. split; [easy|]. split; [apply incl_refl|].
    exists []. rewrite app_nil_r. split; [reflexivity|]. split; [now destruct l1|easy].
  - destruct (seen_in (f_path r) seen) eqn:Se.
    + apply seen_in_spec in Se. intros T.
      destruct (IH _ _ _ _ _ G (fun f I => In_ f (or_intror I)) (fun f q I J => Re f q (or_intror I) J) T)
        as (G' & All & Inc & Ext).
      split; [assumption|]. split; [|now split].
      intros o [<-|I]; [|now apply All]. exists r. split; [reflexivity|now apply Inc].
    + apply seen_out_spec in Se.
      destruct (topo idx n (map idx (f_imports r)) sorted (f_path r :: seen)) as [s1 e1| |] eqn:T1; try discriminate.
      intros T. destruct G as (ND & Eq & Inc).
      assert (Hr : In r fs) by (apply In_; now left).
      assert (G1 : good sorted (f_path r :: stack) (f_path r :: seen)).
      { split; [|split; [|assumption]].
        - apply NoDup_add; [assumption|]. now rewrite <- Eq.
        - intros p. cbn [In]. rewrite Eq, !in_app_iff. cbn [In]. tauto. }
      assert (A1 : forall f, In (Some f) (map idx (f_imports r)) -> In f fs).
      { intros f I. apply in_map_iff in I as (p & E & _). now apply index_some in E. }
      assert (A2 : forall f q, In (Some f) (map idx (f_imports r)) -> In q (f_path r :: stack) -> reaches fs q (f_path f)).
      { intros f q I J. apply in_map_iff in I as (p & E & Ip). apply index_some in E as [If Ep]. subst p.
        destruct J as [<-|J]; [now apply reaches_one|].
        apply reaches_trans with (f_path r); [apply Re; [now left|assumption]|now apply reaches_one]. }
      destruct (IHn _ _ _ _ _ _ G1 A1 A2 T1) as (G1' & All1 & Inc1 & ext1 & -> & F1 & C1).
      destruct G1' as (ND1 & Eq1 & Incl1).
      assert (G2 : good ((sorted ++ ext1) ++ [r]) stack e1).
      { split; [|split].
        - rewrite paths_app, <- app_assoc. exact ND1.
        - intros p. rewrite Eq1, (paths_app _ [r]), <- app_assoc. reflexivity.
        - intros f I. apply in_app_iff in I as [I|[<-|[]]]; [now apply Incl1|assumption]. }
      destruct (IH _ _ _ _ _ G2 (fun f I => In_ f (or_intror I)) (fun f q I J => Re f q (or_intror I) J) T)
        as (G3 & All3 & Inc3 & ext3 & -> & F3 & C3).
      split; [assumption|]. split; [|split].
      * intros o [<-|I]; [|now apply All3]. exists r. split; [reflexivity|].
        apply Inc3, Inc1. now left.
      * intros p I. apply Inc3, Inc1. now right.
      * exists (ext1 ++ [r] ++ ext3). split; [now rewrite <- !app_assoc|]. split.
        -- assert (Fr : fine (sorted ++ ext1) r).
           { intros p Ip. destruct (All1 (idx p)) as (f & E & Se1); [now apply in_map|].
             apply index_some in E as [If Ef]. rewrite Ef in Se1. apply Eq1 in Se1.
             apply in_app_iff in Se1 as [I|[->|I]]; [now left|right; constructor|right].
             apply Re; [now left|assumption]. }
           assert (F12 : forall l1 f l2, ext1 ++ r :: ext3 = l1 ++ f :: l2 -> fine (sorted ++ l1) f).
           { intros l1 f l2 E.
             apply app_eq_app in E as (m & [[E1 E2]|[E1 E2]]).
             - destruct m as [|x m].
               + rewrite app_nil_r in E1. subst l1. injection E2 as -> _. exact Fr.
               + injection E2 as <- E2. now apply (F1 l1 f m).
             - destruct m as [|x m].
               + rewrite app_nil_r in E1. subst l1. injection E2 as <- _. exact Fr.
               + injection E2 as <- E2. subst l1.
                 intros p Ip. destruct (F3 m f l2 E2 p Ip) as [I|I]; [left|now right].
                 rewrite !paths_app in *. rewrite <- !app_assoc in I. exact I. }
           exact F12.
        -- intros f p I Ip. apply in_app_iff in I as [I|[<-|I]].
           ++ now apply (C1 f).
           ++ destruct (All1 (idx p)) as (g & E & _); [now apply in_map|].
              apply index_some in E as [Ig <-]. now apply in_map.
           ++ now apply (C3 f).
  - discriminate.
Qed.

Lemma topo_no_panic n : closed fs -> forall rs sorted seen,
  (forall o, In o rs -> exists f, o = Some f /\ In f fs) ->
  topo idx n rs sorted seen <> NilPanic.
Proof.
  intros Cl. induction n; [discriminate|].
  induction rs as [|[r|] rest IH]; intros sorted seen H; rewrite topo_S.
  - discriminate.
  - assert (Hrest : forall o, In o rest -> exists f, o = Some f /\ In f fs) by (intros; apply H; now right).
    destruct (seen_in _ _); [now apply IH|].
    destruct (topo idx n _ _ _) eqn:T; [now apply IH| |discriminate].
    exfalso. revert T. apply IHn. intros o I. apply in_map_iff in I as (p & <- & Ip).
    destruct (H (Some r)) as (f & E & Hr); [now left|]. injection E as <-.
    destruct (idx p) as [g|] eqn:E; [exists g; split; [reflexivity|now apply index_some in E]|].
    apply index_none in E. now elim E; apply (Cl r).
  - destruct (H None) as (f & E & _); [now left|discriminate].
Qed.

(** files not yet seen *)
Definition unseen (seen : list bytes) : list bytes :=
  filter (fun p => negb (seen_in p seen)) (nodup (list_eq_dec ascii_dec) (paths fs)).

Lemma filter_weaken {A} (f g : A -> bool) l : (forall x, g x = true -> f x = true) ->
  List.length (filter g l) <= List.length (filter f l).
Proof.
  intros H. induction l as [|a l IH]; cbn [filter]; [easy|].
  destruct (g a) eqn:Ga; [rewrite (H _ Ga); cbn; lia|].
  destruct (f a); cbn; lia.
Qed.
Lemma filter_less {A} (f g : A -> bool) l x : (forall x, g x = true -> f x = true) ->
  In x l -> f x = true -> g x = false -> List.length (filter g l) < List.length (filter f l).
Proof.
  intros H I Fx Gx. induction l as [|a l IH]; [easy|].
  cbn [filter]. destruct I as [->|I].
  - rewrite Fx, Gx. cbn. pose proof (filter_weaken f g l H). lia.
  - specialize (IH I). destruct (g a) eqn:Ga; [rewrite (H _ Ga); cbn; lia|].
    destruct (f a); cbn; lia.
Qed.
Lemma unseen_mono s t : incl s t -> List.length (unseen t) <= List.length (unseen s).
Proof.
  intros I. apply filter_weaken. intros p. rewrite !negb_true_iff, !seen_out_spec. auto.
Qed.
Lemma unseen_less p s : In p (paths fs) -> ~ In p s -> List.length (unseen (p :: s)) < List.length (unseen s).
Proof.
  intros I N. apply filter_less with p.
  - intros q. rewrite !negb_true_iff, !seen_out_spec. cbn. tauto.
  - now apply nodup_In.
  - now rewrite negb_true_iff, seen_out_spec.
  - rewrite negb_false_iff, seen_in_spec. now left.
Qed.

Lemma topo_grows n : forall rs sorted seen s' e', topo idx n rs sorted seen = Sorted s' e' -> incl seen e'.
Proof.
  induction n; [discriminate|].
  induction rs as [|[r|] rest IH]; intros sorted seen s' e'; rewrite topo_S; [|
    destruct (seen_in _ _); [apply IH|] |discriminate].
  - intros [= <- <-]. apply incl_refl.
  - destruct (topo idx n _ _ _) eqn:T; try discriminate. intros T2.
    apply IH in T2. apply IHn in T. intros p I. apply T2, T. now right.
Qed.

Lemma topo_deep n : forall rs sorted seen, (forall f, In (Some f) rs -> In f fs) ->
  List.length (unseen seen) < n -> topo idx n rs sorted seen <> Deep.
Proof.
  induction n; [lia|].
  induction rs as [|[r|] rest IH]; intros sorted seen H L; rewrite topo_S.
  - discriminate.
  - assert (Hrest : forall f, In (Some f) rest -> In f fs) by (intros; apply H; now right).
    destruct (seen_in _ _) eqn:Se; [now apply IH|]. apply seen_out_spec in Se.
    destruct (topo idx n _ _ _) eqn:T; [|discriminate|].
    + apply IH; [assumption|]. apply topo_grows in T.
      assert (List.length (unseen seen0) <= List.length (unseen seen)); [|lia].
      apply unseen_mono. intros p I. apply T. now right.
    + exfalso. revert T. apply IHn.
      * intros f I. apply in_map_iff in I as (p & E & _). now apply index_some in E.
      * pose proof (unseen_less (f_path r) seen) as U.
        assert (In (f_path r) (paths fs)) by (apply in_map, H; now left). specialize (U H0 Se). lia.
  - discriminate.
Qed.
End Dfs.

Lemma unseen_bound fs seen : List.length (unseen fs seen) <= List.length fs.
Proof.
  unfold unseen.
  assert (forall A (f : A -> bool) l, List.length (filter f l) <= List.length l) as F
    by (intros A f l; induction l as [|a l IH]; cbn; [lia|]; destruct (f a); cbn; lia).
  etransitivity; [apply F|].
  assert (List.length (nodup (list_eq_dec ascii_dec) (paths fs)) <= List.length (paths fs)).
  { apply NoDup_incl_length; [apply NoDup_nodup|]. intros x. now rewrite nodup_In. }
  unfold paths in *. now rewrite map_length in H.
Qed.

Lemma sort_not_deep fs : topological_sort fs <> Deep.
Proof.
  apply topo_deep.
  - intros f I. apply in_map_iff in I as (g & [= <-] & I). exact I.
  - pose proof (unseen_bound fs []). lia.
Qed.
Lemma sort_no_panic fs : closed fs -> topological_sort fs <> NilPanic.
Proof.
  intros C. apply topo_no_panic; [assumption|].
  intros o I. apply in_map_iff in I as (g & <- & I). now exists g.
Qed.
Lemma sort_inv fs s e : topological_sort fs = Sorted s e ->
  NoDup (paths s) /\ incl s fs /\ (forall f, In f fs -> In (f_path f) (paths s)) /\
  (forall l1 f l2, s = l1 ++ f :: l2 -> fine fs l1 f) /\
  (forall f p, In f s -> In p (f_imports f) -> In p (paths fs)).
Proof.
  unfold topological_sort. intros T.
  assert (G0 : good fs [] [] []) by (split; [constructor|]; split; [reflexivity|easy]).
  assert (A0 : forall f, In (Some f) (map Some fs) -> In f fs)
    by (intros f I; apply in_map_iff in I as (g & [= <-] & I); exact I).
  assert (R0 : forall f q, In (Some f) (map Some fs) -> In q [] -> reaches fs q (f_path f)) by easy.
  destruct (topo_inv fs _ _ _ _ _ _ _ G0 A0 R0 T) as (G & All & _ & ext & E & F & C).
  cbn [app] in E. subst ext. destruct G as (ND & Eq & Inc). rewrite app_nil_r in ND.
    split; [assumption|]. split; [assumption|]. split; [|split; [exact F|exact C]].
    intros f I. destruct (All (Some f)) as (g & [= <-] & Ie); [now apply in_map|].
    apply Eq in Ie. now rewrite app_nil_r in Ie.
Qed.

Lemma nodup_paths_inj fs f g : NoDup (paths fs) -> In f fs -> In g fs -> f_path f = f_path g -> f = g.
Proof.
  intros N If Ig E. apply in_split in If as (a & b & ->).
  unfold paths in N. rewrite map_app in N. cbn in N. apply NoDup_remove_2 in N.
  rewrite <- map_app in N.
  apply in_app_iff in Ig as [I|[I|I]]; [|assumption|];
  elim N; rewrite E; apply in_map, in_app_iff; tauto.
Qed.
Lemma paths_nodup fs : NoDup (paths fs) -> NoDup fs.
Proof. apply NoDup_map_inv. Qed.

Lemma sort_perm fs s e : NoDup (paths fs) -> topological_sort fs = Sorted s e -> Permutation s fs.
Proof.
  intros N T. destruct (sort_inv _ _ _ T) as (ND & Inc & All & _).
  apply NoDup_Permutation; [now apply paths_nodup|now apply paths_nodup|].
  intros f. split; [apply Inc|]. intros I.
  destruct (proj1 (in_map_iff _ _ _) (All f I)) as (g & E & Ig).
  assert (g = f) as -> by (apply (nodup_paths_inj fs); auto). assumption.
Qed.

(** ** Workspace-local *)
Lemma rel_below ws r : rel_path ws (ws ++ r) = r.
Proof. induction ws as [|x ws IH]; cbn; [now destruct r|]. now rewrite beq_refl. Qed.
Lemma resolve_plain r : Forall normal r -> forall cwd, resolve cwd r = cwd ++ r.
Proof.
  induction 1 as [|c r N _ IH]; intros cwd; cbn [resolve]; [now rewrite app_nil_r|].
  destruct (beq c dot2) eqn:E; [apply beq_eq in E; now destruct N as (_ & _ & ? & _)|].
  rewrite IH, <- app_assoc. reflexivity.
Qed.
Lemma is_local_normal r : Forall normal r -> is_local r = true.
Proof.
  destruct 1 as [|c r N _]; [reflexivity|]. cbn [is_local]. destruct (beq c dot2) eqn:E; [|reflexivity].
  apply beq_eq in E. now destruct N as (_ & _ & ? & _).
Qed.
Lemma rel_not_below ws : forall f, ~ below ws f -> is_local (rel_path ws f) = false.
Proof.
  induction ws as [|x ws IH]; intros f N.
  - elim N. exists f. reflexivity.
  - destruct f as [|y f]; [vm_compute; reflexivity|]. cbn [rel_path].
    destruct (beq x y) eqn:E; [|vm_compute; reflexivity].
    apply beq_eq in E. subst y. apply IH. intros (r & ->). apply N. now exists r.
Qed.
Lemma below_dec ws : forall f, below ws f \/ ~ below ws f.
Proof.
  induction ws as [|x ws IH]; intros f; [left; now exists f|].
  destruct f as [|y f]; [right; intros (r & E); discriminate|].
  destruct (list_eq_dec ascii_dec x y) as [->|N].
  - destruct (IH f) as [(r & ->)|N]; [left; now exists r|right].
    intros (r & E). injection E as ->. apply N. now exists r.
  - right. intros (r & E). injection E as -> _. now elim N.
Qed.

(** ** Restoring names *)
Section Restore.
Variable uri_of orig_of : bytes -> option bytes.
Notation original := (original uri_of orig_of).
Notation restore_dep := (restore_dep uri_of orig_of).
Notation restore := (restore uri_of orig_of).

Lemma restore_dep_original d : original d (restore_dep d).
Proof.
  unfold Model.restore_dep, Spec.original. destruct (uri_of d) as [u|] eqn:E.
  - destruct (orig_of u) as [o|] eqn:E2.
    + left. exists u. split; [reflexivity|]. destruct (beq o d) eqn:B; [apply beq_eq in B; now subst|assumption].
    + right. split; [intros u' [= <-]; assumption|reflexivity].
  - right. now split.
Qed.
Lemma original_fun d a b : original d a -> original d b -> a = b.
Proof.
  intros [(u & E & O)|[N ->]] [(u' & E' & O')|[N' ->]]; try congruence; exfalso.
  - rewrite (N' _ E) in O. discriminate.
  - rewrite (N _ E') in O'. discriminate.
Qed.
Lemma original_iff d o : original d o <-> o = restore_dep d.
Proof. split; [intros H; eapply original_fun; eauto using restore_dep_original|intros ->; apply restore_dep_original]. Qed.

Lemma restore_name f : name (restore f) = restore_dep (name f).
Proof.
  unfold Model.restore, Model.restore_dep. destruct (uri_of (name f)) as [u|]; [|reflexivity].
  destruct (orig_of u) as [o|]; [|reflexivity]. destruct (beq o (name f)); reflexivity.
Qed.

Definition skipped (f : desc) : Prop :=
  uri_of (name f) = None \/ exists u, uri_of (name f) = Some u /\ orig_of u = Some (name f).
Lemma skipped_dec f : skipped f \/ ~ skipped f.
Proof.
  unfold skipped. destruct (uri_of (name f)) as [u|]; [|tauto].
  destruct (orig_of u) as [o|] eqn:E.
  - destruct (list_eq_dec ascii_dec o (name f)) as [->|N]; [left; right; now exists u|right].
    intros [?|(u' & [= <-] & E')]; congruence.
  - right. intros [?|(u' & [= <-] & E')]; congruence.
Qed.
Lemma restore_skipped f : skipped f -> restore f = f.
Proof.
  unfold Model.restore. intros [->|(u & -> & ->)]; [reflexivity|]. now rewrite beq_refl.
Qed.
Lemma restore_not_skipped f : ~ skipped f -> restore f = mkDesc (restore_dep (name f)) (map restore_dep (deps f)).
Proof.
  intros N. pose proof (restore_name f) as Hn. revert Hn. unfold skipped in N. unfold Model.restore.
  destruct (uri_of (name f)) as [u|] eqn:E; [|tauto].
  destruct (orig_of u) as [o|] eqn:O; [|cbn [name]; intros <-; reflexivity].
  destruct (beq o (name f)) eqn:B; [|cbn [name]; intros <-; reflexivity].
  apply beq_eq in B. subst o. elim N. right. now exists u.
Qed.
Lemma forall2_map ds es : Forall2 original ds es <-> es = map restore_dep ds.
Proof.
  revert es. induction ds as [|d ds IH]; intros es; split.
  - now inversion 1.
  - intros ->. constructor.
  - inversion 1 as [|? e ? es' Ho Hr]; subst. apply IH in Hr. apply original_iff in Ho. cbn. now subst.
  - intros ->. constructor; [apply restore_dep_original|now apply IH].
Qed.
Lemma restored_iff f g : restored uri_of orig_of f g <-> g = mkDesc (restore_dep (name f)) (map restore_dep (deps f)).
Proof.
  unfold restored. rewrite forall2_map, original_iff. destruct g; cbn. split; [intros []; now subst|now intros [= -> ->]].
Qed.
Lemma map_fixed ds : map restore_dep ds = ds <-> Forall (fun d => original d d) ds.
Proof.
  induction ds as [|d ds IH]; [split; [constructor|reflexivity]|].
  cbn [map]. split.
  - intros E. injection E as E1 E2. constructor; [now apply original_iff|now apply IH].
  - inversion 1; subst. f_equal; [symmetry; now apply original_iff|now apply IH].
Qed.
End Restore.

(** ** Go packages *)
Lemma contains_spec c s : contains c s = true <-> In c s.
Proof.
  unfold contains. rewrite existsb_exists. split.
  - intros (x & I & E). apply Ascii.eqb_eq in E. now subst.
  - intros I. exists c. split; [assumption|apply Ascii.eqb_refl].
Qed.
Lemma contains_false c s : contains c s = false <-> ~ In c s.
Proof. rewrite <- contains_spec. destruct (contains c s); split; congruence. Qed.

Section Go.
Variable sp : bytes -> bytes -> bytes * bytes.

Definition dirs_from (fs : list src) (m : dirs) : Prop :=
  forall d g, m d = Some g -> g = d \/ exists b h, In b fs /\ path_dir (s_path b) = d /\ s_go b = Some h /\ g = sanitize d h.

Lemma scan_found d others g : scan_others sp d others = Found g ->
  exists b h, In b others /\ same_dir d b /\ s_pkg d = s_pkg b /\ s_go b = Some h /\ g = sanitize (path_dir (s_path d)) h.
Proof.
  induction others as [|o r IH]; cbn [scan_others]; [discriminate|].
  destruct (beq _ _) eqn:E; cbn [negb].
  - apply beq_eq in E. destruct (s_go o) as [h|] eqn:G.
    + destruct (beq _ _) eqn:P; [|discriminate]. apply beq_eq in P. intros [= <-]. exists o, h.
      repeat split; try assumption; [now left|now symmetry].
    + destruct (beq _ _) eqn:P; [|discriminate]. intros H. destruct (IH H) as (b & k & I & ?).
      exists b, k. split; [now right|assumption].
  - intros H. destruct (IH H) as (b & k & I & ?). exists b, k. split; [now right|assumption].
Qed.
Lemma scan_can d others : scan_others sp d others = CanInfer ->
  forall b, In b others -> same_dir d b -> s_go b = None /\ s_pkg d = s_pkg b.
Proof.
  induction others as [|o r IH]; cbn [scan_others]; [easy|].
  destruct (beq _ _) eqn:E; cbn [negb].
  - destruct (s_go o) as [h|] eqn:G; (destruct (beq (s_pkg d) (s_pkg o)) eqn:P; [|discriminate]); [discriminate|].
    apply beq_eq in P. intros H b [<-|I] S; [now split|now apply IH].
  - apply beq_neq in E. intros H b [<-|I] S; [now elim E|now apply IH].
Qed.
Lemma scan_fails d others p : scan_others sp d others = Fails p ->
  exists b, In b others /\ same_dir d b /\ s_pkg d <> s_pkg b.
Proof.
  induction others as [|o r IH]; cbn [scan_others]; [discriminate|].
  destruct (beq _ _) eqn:E; cbn [negb].
  - apply beq_eq in E. destruct (s_go o) as [h|] eqn:G; destruct (beq (s_pkg d) (s_pkg o)) eqn:P; try discriminate.
    + apply beq_neq in P. intros _. exists o. split; [now left|]. split; [now symmetry|assumption].
    + intros H. destruct (IH H) as (b & I & ?). exists b. split; [now right|assumption].
    + apply beq_neq in P. intros _. exists o. split; [now left|]. split; [now symmetry|assumption].
  - intros H. destruct (IH H) as (b & I & ?). exists b. split; [now right|assumption].
Qed.

Lemma go_cons m before d r : go_packages sp m before (d :: r) =
  (snd (fst (one sp m before d r)) :: fst (go_packages sp (fst (fst (one sp m before d r))) (before ++ [d]) r),
   snd (one sp m before d r) ++ snd (go_packages sp (fst (fst (one sp m before d r))) (before ++ [d]) r)).
Proof.
  cbn [go_packages]. destruct (one sp m before d r) as [[m' g] e]. cbn.
  destruct (go_packages sp m' (before ++ [d]) r). reflexivity.
Qed.

Lemma one_from fs m before d r : fs = before ++ d :: r -> dirs_from fs m -> snd (one sp m before d r) = [] ->
  dirs_from fs (fst (fst (one sp m before d r))) /\
  exists g, snd (fst (one sp m before d r)) = Some g /\
    (g = path_dir (s_path d) \/ exists b h, In b fs /\ same_dir d b /\ s_go b = Some h /\ g = sanitize (path_dir (s_path d)) h).
Proof.
  intros Ef D. unfold one. destruct (s_go d) as [h|] eqn:G.
  - intros _. split; [assumption|]. eexists. split; [reflexivity|]. right. exists d, h.
    split; [subst; apply in_app_iff; right; now left|]. now repeat split.
  - destruct (m _) as [g|] eqn:M.
    + intros _. split; [assumption|]. exists g. split; [reflexivity|]. destruct (D _ _ M) as [->|(b & h & I & P & H & ->)]; [now left|].
      right. exists b, h. repeat split; try assumption. unfold same_dir. now symmetry.
    + assert (Sub : forall b, In b (before ++ r) -> In b fs).
      { intros b I. subst. apply in_app_iff in I as [I|I]; apply in_app_iff; [now left|right; now right]. }
      destruct (scan_others sp d (before ++ r)) as [g|p|] eqn:S; [|discriminate|]; intros _.
      * destruct (scan_found _ _ _ S) as (b & h & I & Sd & Pk & Gb & ->).
        split.
        -- intros x y. cbn. destruct (beq x _) eqn:E; [|apply D]. apply beq_eq in E. subst x. intros [= <-].
           right. exists b, h. repeat split; [now apply Sub|now symmetry|assumption].
        -- eexists. split; [reflexivity|]. right. exists b, h. split; [now apply Sub|]. now repeat split.
      * split.
        -- intros x y. cbn. destruct (beq x _) eqn:E; [|apply D]. apply beq_eq in E. subst x. intros [= <-]. now left.
        -- eexists. split; [reflexivity|]. now left.
Qed.

Lemma go_from fs : forall rest m before, fs = before ++ rest -> dirs_from fs m -> snd (go_packages sp m before rest) = [] ->
  Forall2 (fun d og => exists g, og = Some g /\
    (g = path_dir (s_path d) \/ exists b h, In b fs /\ same_dir d b /\ s_go b = Some h /\ g = sanitize (path_dir (s_path d)) h))
    rest (fst (go_packages sp m before rest)).
Proof.
  induction rest as [|d r IH]; intros m before Ef D; [constructor|].
  rewrite go_cons. cbn [fst snd]. intros E. apply app_eq_nil in E as [E1 E2].
  destruct (one_from fs m before d r Ef D E1) as [D' H].
  constructor; [assumption|]. apply IH; [now rewrite <- app_assoc|assumption|assumption].
Qed.

(** explicit packages *)
Lemma go_explicit : forall rest m before, Forall2 (fun d og => forall h, s_go d = Some h -> og = Some (sanitize (path_dir (s_path d)) h))
    rest (fst (go_packages sp m before rest)).
Proof.
  induction rest as [|d r IH]; intros m before; [constructor|].
  rewrite go_cons. cbn [fst]. constructor; [|apply IH]. intros h H. unfold one. now rewrite H.
Qed.

(** consistent directories *)
Definition meant_map (fs : list src) (m : dirs) : Prop :=
  forall a g, In a fs -> m (path_dir (s_path a)) = Some g -> meant fs a g.

Lemma meant_fun fs a g h : consistent fs -> In a fs -> meant fs a g -> meant fs a h -> g = h.
Proof.
  intros C Ia [(b & k & Ib & Sb & Gb & ->)|[N ->]] [(b' & k' & Ib' & Sb' & Gb' & ->)|[N' ->]].
  - assert (S : same_dir b b') by (unfold same_dir in *; congruence).
    destruct (C b b' Ib Ib' S) as [_ Cg]. specialize (Cg _ _ Gb Gb').
    unfold same_dir in Sb. now rewrite <- Sb in Cg.
  - rewrite (N' b Ib Sb) in Gb. discriminate.
  - rewrite (N b' Ib' Sb') in Gb'. discriminate.
  - reflexivity.
Qed.
Lemma meant_same fs a b g : same_dir a b -> meant fs a g -> meant fs b g.
Proof.
  intros S [(c & k & Ic & Sc & Gc & ->)|[N ->]].
  - left. exists c, k. unfold same_dir in *. repeat split; try congruence. 
  - right. unfold same_dir in *. split; [|congruence]. intros c Ic Sc. apply N; congruence.
Qed.

Lemma one_consistent fs m before d r : fs = before ++ d :: r -> consistent fs -> meant_map fs m ->
  snd (one sp m before d r) = [] /\ meant_map fs (fst (fst (one sp m before d r))) /\
  exists g, snd (fst (one sp m before d r)) = Some g /\ meant fs d g.
Proof.
  intros Ef C M.
  assert (Id : In d fs) by (subst; apply in_app_iff; right; now left).
  assert (Sub : forall b, In b (before ++ r) -> In b fs).
  { intros b I. subst. apply in_app_iff in I as [I|I]; apply in_app_iff; [now left|right; now right]. }
  unfold one. destruct (s_go d) as [h|] eqn:G.
  - split; [reflexivity|]. split; [assumption|]. eexists. split; [reflexivity|].
    left. exists d, h. now repeat split.
  - destruct (m _) as [g|] eqn:Md.
    + split; [reflexivity|]. split; [assumption|]. exists g. split; [reflexivity|]. now apply M.
    + destruct (scan_others sp d (before ++ r)) as [g|p|] eqn:S.
      * destruct (scan_found _ _ _ S) as (b & h & I & Sd & Pk & Gb & ->).
        assert (Me : meant fs d (sanitize (path_dir (s_path d)) h)).
        { left. exists b, h. repeat split; try assumption. now apply Sub. }
        split; [reflexivity|]. split; [|eexists; split; [reflexivity|assumption]].
        intros a g Ia. cbn. destruct (beq _ _) eqn:E; [|now apply M].
        apply beq_eq in E. intros [= <-]. apply meant_same with d; [now symmetry|assumption].
      * exfalso. destruct (scan_fails _ _ _ S) as (b & I & Sd & Pk). apply Pk. now apply (C d b Id (Sub _ I)).
      * assert (Me : meant fs d (path_dir (s_path d))).
        { right. split; [|reflexivity]. intros b Ib Sb. subst fs. apply in_app_iff in Ib as [I|[<-|I]];
          [|assumption|]; apply (scan_can _ _ S b); try assumption; apply in_app_iff; [now left|now right]. }
        split; [reflexivity|]. split; [|eexists; split; [reflexivity|assumption]].
        intros a g Ia. cbn. destruct (beq _ _) eqn:E; [|now apply M].
        apply beq_eq in E. intros [= <-]. apply meant_same with d; [now symmetry|assumption].
Qed.
Lemma go_consistent fs : consistent fs -> forall rest m before, fs = before ++ rest -> meant_map fs m ->
  snd (go_packages sp m before rest) = [] /\
  Forall2 (fun d og => exists g, og = Some g /\ meant fs d g) rest (fst (go_packages sp m before rest)).
Proof.
  intros C. induction rest as [|d r IH]; intros m before Ef M; [split; [reflexivity|constructor]|].
  rewrite go_cons. cbn [fst snd].
  destruct (one_consistent fs m before d r Ef C M) as (E1 & M' & H).
  destruct (IH (fst (fst (one sp m before d r))) (before ++ [d])) as [E2 F]; [now rewrite <- app_assoc|assumption|].
  split; [now rewrite E1, E2|]. constructor; assumption.
Qed.
End Go.

(** ** protogen's requirements *)
Lemma existsb_beq p l : existsb (beq p) l = true <-> In p l. Proof. exact (seen_in_spec p l). Qed.
Lemma existsb_beq_f p l : existsb (beq p) l = false <-> ~ In p l. Proof. exact (seen_out_spec p l). Qed.

Lemma NoDup_app_l {A} (a b : list A) : NoDup (a ++ b) -> NoDup a.
Proof.
  induction b as [|x b IH]; [now rewrite app_nil_r|]. intros N. now apply IH, NoDup_remove_1 with x.
Qed.
Lemma accepts_iff fs : forall earlier, NoDup earlier -> (accepts_files earlier fs = true <->
  NoDup (earlier ++ map name fs) /\
  forall l1 f l2 d, fs = l1 ++ f :: l2 -> In d (deps f) -> In d (earlier ++ map name l1)).
Proof.
  induction fs as [|f r IH]; intros earlier ND; cbn [accepts_files map].
  - rewrite app_nil_r. split; [|reflexivity]. intros _. split; [assumption|]. intros [|? ?]; discriminate.
  - rewrite !andb_true_iff, negb_true_iff, existsb_beq_f, forallb_forall. split.
    + intros [[N D] A].
      assert (ND2 : NoDup (earlier ++ [name f])) by (apply NoDup_add; [now rewrite app_nil_r|now rewrite app_nil_r]).
      apply IH in A as [A1 A2]; [|assumption]. rewrite <- app_assoc in A1. split; [exact A1|].
      intros [|x l1] g l2 d E I.
      * injection E as <- _. cbn. rewrite app_nil_r. apply existsb_beq. now apply D.
      * injection E as <- E. specialize (A2 l1 g l2 d E I). now rewrite <- app_assoc in A2.
    + intros [A1 A2].
      assert (A1' : NoDup ((earlier ++ [name f]) ++ map name r)) by now rewrite <- app_assoc.
      assert (ND2 : NoDup (earlier ++ [name f])) by (apply NoDup_app_l in A1'; assumption).
      split; [split|].
      * apply NoDup_remove_2 in ND2. now rewrite app_nil_r in ND2.
      * intros d I. apply existsb_beq. specialize (A2 [] f r d eq_refl I). cbn in A2. now rewrite app_nil_r in A2.
      * apply IH; [assumption|]. split; [assumption|]. intros l1 g l2 d E I.
        rewrite <- app_assoc. apply (A2 (f :: l1) g l2 d); [now rewrite E|assumption].
Qed.

Lemma no_problem_all sp rest : forall m before gs, go_packages sp m before rest = (gs, []) -> Forall (fun g => g <> None) gs.
Proof.
  induction rest as [|d r IH]; intros m before gs H; cbn [go_packages] in H; [injection H as <-; constructor|].
  destruct (one sp m before d r) as [[m' g] e] eqn:O. destruct (go_packages sp m' (before ++ [d]) r) as [gs' es] eqn:E.
  injection H as <- X. apply app_eq_nil in X as [-> ->]. constructor; [|eapply IH; eassumption].
  unfold one in O. destruct (s_go d); [injection O as _ <-; discriminate|].
  destruct (m (path_dir (s_path d))); [injection O as _ <-; discriminate|].
  destruct (scan_others sp d (before ++ r)); injection O as _ <- ; try discriminate.
Qed.
