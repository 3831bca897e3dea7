(** Lemmas about workspace folders. *)
From Coq Require Import Ascii String Permutation.
From Verif Require Import Base Strs.
From Verif.Workspaces Require Import Model Spec.
Open Scope list_scope.

(** ** Lookup *)
Lemma takes_spec path e : takes path e = true <-> starts (fst e) path /\ ~ starts (fst e ++ vendor) path.
Proof.
  unfold takes, starts. rewrite andb_true_iff, negb_true_iff, has_prefix_spec. split; intros [H1 H2]; split; try assumption.
  - intro H. apply has_prefix_spec in H. congruence.
  - destruct (has_prefix path (fst e ++ vendor)) eqn:E; [|reflexivity]. now apply has_prefix_spec in E.
Qed.

Lemma find_perm_some {A} (f : A -> bool) l l' x : Permutation l l' -> find f l' = Some x -> In x l /\ f x = true.
Proof. intros P H. apply find_some in H as [H1 H2]. split; [|assumption]. now apply (Permutation_in x (Permutation_sym P)). Qed.
Lemma find_perm_none {A} (f : A -> bool) l l' : Permutation l l' -> find f l' = None -> forall x, In x l -> f x = false.
Proof. intros P H x Hx. eapply find_none; [exact H|]. now apply (Permutation_in x P). Qed.
Lemma find_none_intro {A} (f : A -> bool) l : (forall x, In x l -> f x = false) -> find f l = None.
Proof. induction l as [|x l IH]; intro H; [reflexivity|]. cbn [find]. rewrite (H x); [|now left]. apply IH. intros y Hy. apply H. now right. Qed.
Lemma front {A} (x : A) l : In x l -> exists r, Permutation l (x :: r).
Proof. intro H. apply in_split in H as (l1 & l2 & ->). exists (l1 ++ l2). symmetry. apply Permutation_middle. Qed.

Lemma possible_iff m uri path c : possible m uri [] path (Served c) <->
  (exists p, In (p, c) m /\ starts p path /\ ~ starts (p ++ vendor) path) \/
  ((forall p c', In (p, c') m -> starts p path -> starts (p ++ vendor) path) /\ exists p, In (p, c) m /\ c_tracks c uri = true).
Proof.
  unfold possible, cache_for_uri. cbn [beq negb]. split.
  - intros (order & P & H). rewrite (proj2 (beq_eq [] [])) in H by reflexivity. cbn [negb] in H.
    destruct (find (takes path) order) as [[p c0]|] eqn:E.
    + injection H as ->. destruct (find_perm_some _ _ _ _ P E) as [Hin Ht]. apply takes_spec in Ht. left. exists p. auto.
    + destruct (find (fun e => c_tracks (snd e) uri) order) as [[p c0]|] eqn:E2; [|discriminate]. injection H as ->.
      destruct (find_perm_some _ _ _ _ P E2) as [Hin Ht]. right. split; [|exists p; auto].
      intros q c' Hq Hs. pose proof (find_perm_none _ _ _ P E _ Hq) as Hf. unfold takes in Hf. cbn [fst] in Hf.
      apply andb_false_iff in Hf as [Hf|Hf].
      * exfalso. apply has_prefix_spec in Hs. congruence.
      * apply negb_false_iff in Hf. now apply has_prefix_spec.
  - rewrite (proj2 (beq_eq [] [])) by reflexivity. cbn [negb]. intros [(p & Hin & Hs & Hn)|(Hno & p & Hin & Ht)].
    + destruct (front _ _ Hin) as [r P]. exists ((p, c) :: r). split; [exact P|]. cbn [find].
      rewrite (proj2 (takes_spec path (p, c))); [reflexivity|auto].
    + destruct (front _ _ Hin) as [r P]. exists ((p, c) :: r). split; [exact P|].
      rewrite (find_none_intro (takes path)).
      * cbn [find snd]. now rewrite Ht.
      * intros [q c'] Hq. apply (Permutation_in _ (Permutation_sym P)) in Hq.
        destruct (takes path (q, c')) eqn:E; [|reflexivity]. apply takes_spec in E as [E1 E2]. exfalso. apply E2. now apply (Hno q c').
Qed.

Lemma order_irrelevant m order uri path c p :
  In (p, c) m -> starts p path -> ~ starts (p ++ vendor) path ->
  (forall q c', In (q, c') m -> starts q path -> q = p /\ c' = c) ->
  Permutation m order -> cache_for_uri order uri [] path = Served c.
Proof.
  intros Hin Hs Hn Hu P. unfold cache_for_uri. rewrite (proj2 (beq_eq [] [])) by reflexivity. cbn [negb].
  destruct (find (takes path) order) as [[q c']|] eqn:E.
  - destruct (find_perm_some _ _ _ _ P E) as [Hq Ht]. apply takes_spec in Ht as [Ht _]. cbn [fst snd] in *. now destruct (Hu q c' Hq Ht) as [_ ->].
  - exfalso. pose proof (find_perm_none _ _ _ P E _ Hin) as Hf. rewrite (proj2 (takes_spec path (p, c))) in Hf by auto. discriminate.
Qed.

Lemma inside_starts d p : inside d p -> starts d p.
Proof. intros [->|[r ->]]; [exists []; now rewrite app_nil_r|now exists (slash :: r)]. Qed.

(** ** Association lists *)
Lemma in_adel {A} k (m : list (bytes * A)) e : In e (adel k m) <-> In e m /\ fst e <> k.
Proof.
  unfold adel. rewrite filter_In, negb_true_iff. split; intros [H1 H2]; (split; [assumption|]).
  - now apply beq_neq.
  - now apply beq_neq.
Qed.
Lemma keys_adel {A} k (m : list (bytes * A)) p : In p (map fst (adel k m)) <-> In p (map fst m) /\ p <> k.
Proof.
  rewrite !in_map_iff. split.
  - intros (e & <- & H). apply in_adel in H as [H1 H2]. split; [exists e; auto|assumption].
  - intros [(e & <- & H) Hk]. exists e. split; [reflexivity|]. apply in_adel. auto.
Qed.
Lemma keys_adel_nodup {A} k (m : list (bytes * A)) : NoDup (map fst m) -> NoDup (map fst (adel k m)).
Proof.
  induction m as [|[q v] m IH]; [auto|]. cbn [map fst]. intros H. inversion H; subst. unfold adel. cbn [filter fst].
  destruct (negb (beq q k)) eqn:E; [|now apply IH]. cbn [map fst]. constructor; [|now apply IH].
  intro Hin. fold (adel k m) in Hin. apply keys_adel in Hin. tauto.
Qed.
Lemma keys_aset_nodup {A} k v (m : list (bytes * A)) : NoDup (map fst m) -> NoDup (map fst (aset k v m)).
Proof. intro H. unfold aset. cbn [map fst]. constructor; [|now apply keys_adel_nodup]. rewrite keys_adel. tauto. Qed.
Lemma keys_aset {A} k v (m : list (bytes * A)) p : In p (map fst (aset k v m)) <-> p = k \/ In p (map fst m).
Proof.
  unfold aset. cbn [map fst In]. rewrite keys_adel. split; [intuition|]. intros [->|H]; [auto|].
  destruct (list_eq_dec ascii_dec p k); [auto|]. right. auto.
Qed.
Lemma aget_none {A} k (m : list (bytes * A)) : aget k m = None <-> ~ In k (map fst m).
Proof.
  unfold aget. split.
  - destruct (find _ m) eqn:E; [discriminate|]. intros _ H. apply in_map_iff in H as (e & He & Hin). pose proof (find_none _ _ E e Hin) as Hf. cbn beta in Hf.
    apply beq_neq in Hf. congruence.
  - intro H. rewrite find_none_intro; [reflexivity|]. intros e He. apply beq_neq. intro Hk. apply H. apply in_map_iff. eauto.
Qed.
Lemma aget_in {A} k (m : list (bytes * A)) v : aget k m = Some v -> In (k, v) m.
Proof.
  unfold aget. destruct (find _ m) as [[q w]|] eqn:E; [|discriminate]. intro H. injection H as <-. apply find_some in E as [E1 E2]. cbn [fst] in E2.
  apply beq_eq in E2. now subst.
Qed.
Lemma in_aget {A} k (m : list (bytes * A)) v : NoDup (map fst m) -> In (k, v) m -> aget k m = Some v.
Proof.
  intros Hd Hin. destruct (aget k m) as [w|] eqn:E.
  - apply aget_in in E. f_equal. clear -Hd Hin E. induction m as [|[q u] m IH]; [contradiction|]. cbn [map fst] in Hd. inversion Hd; subst.
    destruct Hin as [H|H], E as [E|E].
    + congruence.
    + injection H as -> ->. exfalso. apply H1. apply in_map_iff. exists (k, w). auto.
    + injection E as -> ->. exfalso. apply H1. apply in_map_iff. exists (k, v). auto.
    + auto.
  - apply aget_none in E. exfalso. apply E. apply in_map_iff. exists (k, v). auto.
Qed.
Lemma in_remove_nat x y (l : list nat) : In x (remove Nat.eq_dec y l) <-> In x l /\ x <> y.
Proof. split; [apply in_remove|intros [H1 H2]; now apply in_in_remove]. Qed.
Lemma remove_nodup y (l : list nat) : NoDup l -> NoDup (remove Nat.eq_dec y l).
Proof.
  induction l as [|x l IH]; [auto|]. intro H. inversion H; subst. cbn [remove]. destruct (Nat.eq_dec y x); [auto|].
  constructor; [|auto]. rewrite in_remove_nat. tauto.
Qed.

(** ** Folder changes *)
Section Folders.
Variable path_of : bytes -> bytes.
Notation pof f := (path_of (f_uri f)).

(** the cancel functions are those of the caches in the map; identifiers are unique and old *)
Record inv (s : state) : Prop := {
  i_nodup : NoDup (map fst (caches s));
  i_cancels : cancels s = map (fun e => (fst e, fst (snd e))) (caches s);
  i_ids : NoDup (ids s);
  i_old : forall i, In i (ids s) \/ In i (live s) -> i < next s;
  i_live : forall i, In i (ids s) -> In i (live s);
  i_nodup_live : NoDup (live s);
  i_panic : panicked s = false;
  i_path : forall p i f, In (p, (i, f)) (caches s) -> p = pof f
}.
(** no background task without a cache *)
Definition tidy (s : state) : Prop := forall i, In i (live s) -> In i (ids s).

Lemma inv_init : inv init.
Proof. split; cbn; try constructor; try contradiction; try tauto. Qed.
Lemma tidy_init : tidy init.
Proof. intros i H. exact H. Qed.

Lemma map_adel {A B} (g : A -> B) k (m : list (bytes * A)) :
  map (fun e => (fst e, g (snd e))) (adel k m) = adel k (map (fun e => (fst e, g (snd e))) m).
Proof.
  induction m as [|[q v] m IH]; [reflexivity|]. unfold adel in *. cbn [map filter fst snd].
  destruct (negb (beq q k)); cbn [map fst snd]; now rewrite IH.
Qed.

Lemma ids_adel s k i : In i (map (fun e => fst (snd e)) (adel k (caches s))) -> In i (ids s).
Proof. unfold ids. rewrite !in_map_iff. intros (e & <- & H). apply in_adel in H as [H _]. eauto. Qed.
Lemma ids_adel_nodup (m : list (bytes * (nat * folder))) k : NoDup (map (fun e => fst (snd e)) m) -> NoDup (map (fun e => fst (snd e)) (adel k m)).
Proof.
  induction m as [|[q v] m IH]; [auto|]. cbn [map snd]. intro H. inversion H; subst. unfold adel. cbn [filter fst].
  destruct (negb (beq q k)); [|now apply IH]. cbn [map snd]. constructor; [|now apply IH].
  intro Hin. apply H2. fold (adel k m) in Hin. apply in_map_iff in Hin as (e & He & Hin). apply in_adel in Hin as [Hin _]. apply in_map_iff. eauto.
Qed.

Lemma inv_add s f : inv s -> inv (add path_of s f).
Proof.
  intros [Hn Hc Hi Ho Hl Hnl Hp Hpa]. split; unfold add; cbn [caches cancels live next panicked].
  - now apply keys_aset_nodup.
  - unfold aset. cbn [map fst snd]. rewrite map_adel, Hc. reflexivity.
  - unfold ids, aset. cbn [caches map fst snd]. constructor; [|now apply ids_adel_nodup].
    intro H. apply ids_adel in H. specialize (Ho (next s)). lia || (assert (next s < next s) by auto; lia).
  - intros i [H|H].
    + unfold ids, aset in H. cbn [caches map fst snd In] in H. destruct H as [<-|H]; [lia|]. apply ids_adel in H. specialize (Ho i (or_introl H)). lia.
    + destruct H as [<-|H]; [lia|]. specialize (Ho i (or_intror H)). lia.
  - intros i H. unfold ids, aset in H. cbn [caches map fst snd In] in H. destruct H as [<-|H]; [now left|]. right. apply Hl. now apply ids_adel in H.
  - constructor; [|assumption]. intro H. specialize (Ho (next s) (or_intror H)). lia.
  - assumption.
  - intros p i g H. unfold aset in H. destruct H as [H|H]; [now injection H as <- <- <-|]. apply in_adel in H as [H _]. eauto.
Qed.

Lemma aget_cancels s p i f : inv s -> aget p (caches s) = Some (i, f) -> aget p (cancels s) = Some i.
Proof.
  intros I H. rewrite (i_cancels _ I). apply in_aget.
  - rewrite map_map. cbn [fst]. rewrite (map_ext _ fst) by reflexivity. apply (i_nodup _ I).
  - apply in_map_iff. exists (p, (i, f)). split; [reflexivity|]. now apply aget_in.
Qed.

Lemma destroy_eq s p : inv s ->
  destroy s p = match aget p (caches s) with
    | None => s
    | Some (i, _) => mkState (adel p (caches s)) (adel p (cancels s)) (remove Nat.eq_dec i (live s)) (next s) (panicked s)
    end.
Proof.
  intro I. unfold destroy. destruct (aget p (caches s)) as [[i f]|] eqn:E; [|reflexivity]. now rewrite (aget_cancels _ _ _ _ I E).
Qed.

Lemma ids_split s p i f j : inv s -> aget p (caches s) = Some (i, f) ->
  (In j (map (fun e => fst (snd e)) (adel p (caches s))) <-> In j (ids s) /\ j <> i).
Proof.
  intros I E. apply aget_in in E. split.
  - intro H. split; [now apply ids_adel in H|]. intros ->. apply in_map_iff in H as ([q [i' g]] & Hi & Hin). cbn [fst snd] in Hi. subst i'.
    apply in_adel in Hin as [Hin Hq]. cbn [fst] in Hq. apply Hq.
    assert (G : forall m : list (bytes * (nat * folder)), NoDup (map (fun e => fst (snd e)) m) -> In (p, (i, f)) m -> In (q, (i, g)) m -> q = p).
    { clear. induction m as [|e m IH]; intros Hn Ha Hb; [contradiction|]. cbn [map] in Hn. inversion Hn; subst.
      destruct Ha as [->|Ha], Hb as [Hb|Hb].
      - now injection Hb.
      - exfalso. apply H1. apply in_map_iff. exists (q, (i, g)). auto.
      - subst e. exfalso. apply H1. apply in_map_iff. exists (p, (i, f)). auto.
      - auto. }
    apply (G (caches s)); [apply (i_ids _ I)|assumption|assumption].
  - intros [H Hj]. unfold ids in H. apply in_map_iff in H as ([q [i' g]] & Hi & Hin). cbn [fst snd] in Hi. subst i'.
    apply in_map_iff. exists (q, (j, g)). split; [reflexivity|]. apply in_adel. split; [assumption|]. cbn [fst]. intros ->.
    pose proof (in_aget _ _ _ (i_nodup _ I) Hin) as A1. pose proof (in_aget _ _ _ (i_nodup _ I) E) as A2. congruence.
Qed.

Lemma inv_destroy s p : inv s -> inv (destroy s p).
Proof.
  intro I. rewrite (destroy_eq s p I). destruct (aget p (caches s)) as [[i f]|] eqn:E; [|assumption].
  pose proof (ids_split s p i f) as S. pose proof I as I0. destruct I0 as [Hn Hc Hi Ho Hl Hnl Hp Hpa].
  split; cbn [caches cancels live next panicked].
  - now apply keys_adel_nodup.
  - rewrite map_adel, <- Hc. reflexivity.
  - unfold ids. cbn [caches]. now apply ids_adel_nodup.
  - intros j [H|H]; apply Ho.
    + left. unfold ids in H. cbn [caches] in H. now apply ids_adel in H.
    + right. now apply in_remove_nat in H.
  - intros j H. unfold ids in H. cbn [caches] in H. apply S in H; [|assumption|assumption]. apply in_remove_nat. split; [now apply Hl|tauto].
  - now apply remove_nodup.
  - assumption.
  - intros q j g H. apply in_adel in H as [H _]. eauto.
Qed.

Lemma tidy_destroy s p : inv s -> tidy s -> tidy (destroy s p).
Proof.
  intros I T. rewrite (destroy_eq s p I). destruct (aget p (caches s)) as [[i f]|] eqn:E; [|assumption].
  intros j H. cbn [live] in H. apply in_remove_nat in H as [H Hj]. unfold ids. cbn [caches]. apply (ids_split s p i f j I E). auto.
Qed.
Lemma untidy_destroy s p : inv s -> ~ tidy s -> ~ tidy (destroy s p).
Proof.
  intros I T T'. apply T. intros j H. rewrite (destroy_eq s p I) in T'. destruct (aget p (caches s)) as [[i f]|] eqn:E; [|now apply T'].
  destruct (Nat.eq_dec j i) as [->|Hj].
  - apply aget_in in E. unfold ids. apply in_map_iff. exists (p, (i, f)). auto.
  - assert (Hx : In j (ids (mkState (adel p (caches s)) (adel p (cancels s)) (remove Nat.eq_dec i (live s)) (next s) (panicked s)))).
    { apply T'. cbn [live]. now apply in_remove_nat. }
    unfold ids in Hx. cbn [caches] in Hx. now apply ids_adel in Hx.
Qed.
Lemma tidy_add s f : inv s -> (tidy (add path_of s f) <-> tidy s /\ ~ In (pof f) (paths s)).
Proof.
  intros I. unfold tidy, add. cbn [live]. unfold ids at 1. cbn [caches]. unfold aset. cbn [map fst snd]. split.
  - intro H. assert (Hno : ~ In (pof f) (paths s)).
    { intro Hin. unfold paths in Hin. apply in_map_iff in Hin as ([p [i g]] & Hp & Hin). cbn [fst] in Hp. subst p.
      pose proof (in_aget _ _ _ (i_nodup _ I) Hin) as Ha.
      assert (Hi : In i (ids s)) by (unfold ids; apply in_map_iff; exists (pof f, (i, g)); auto).
      destruct (H i (or_intror (i_live _ I i Hi))) as [Hx|Hx].
      - pose proof (i_old _ I i (or_introl Hi)). lia.
      - apply (ids_split s _ _ _ _ I Ha) in Hx. tauto. }
    split; [|assumption]. intros j Hj. destruct (H j (or_intror Hj)) as [Hx|Hx].
    + pose proof (i_old _ I j (or_intror Hj)). lia.
    + now apply ids_adel in Hx.
  - intros [T Hno] j [<-|Hj]; [now left|right]. specialize (T j Hj). unfold ids in T. apply in_map_iff in T as (e & He & Hin). apply in_map_iff.
    exists e. split; [assumption|]. apply in_adel. split; [assumption|]. intro Hk. apply Hno. unfold paths. apply in_map_iff. eauto.
Qed.

Lemma inv_adds fs : forall s, inv s -> inv (fold_left (add path_of) fs s).
Proof. induction fs as [|f fs IH]; intros s I; [assumption|]. cbn [fold_left]. apply IH. now apply inv_add. Qed.
Lemma inv_destroys ps : forall s, inv s -> inv (fold_left destroy ps s).
Proof. induction ps as [|p ps IH]; intros s I; [assumption|]. cbn [fold_left]. apply IH. now apply inv_destroy. Qed.

Lemma paths_add s f p : In p (paths (add path_of s f)) <-> p = pof f \/ In p (paths s).
Proof. unfold paths, add. cbn [caches]. apply keys_aset. Qed.
Lemma paths_destroy s q p : inv s -> (In p (paths (destroy s q)) <-> In p (paths s) /\ p <> q).
Proof.
  intro I. rewrite (destroy_eq s q I). destruct (aget q (caches s)) as [[i f]|] eqn:E.
  - unfold paths. cbn [caches]. apply keys_adel.
  - apply aget_none in E. unfold paths. split; [|tauto]. intro H. split; [assumption|]. now intros ->.
Qed.
Lemma paths_adds fs : forall s p, In p (paths (fold_left (add path_of) fs s)) <-> In p (paths s) \/ exists f, In f fs /\ p = pof f.
Proof.
  induction fs as [|f fs IH]; intros s p; cbn [fold_left].
  - split; [auto|]. intros [H|(f & [] & _)]. exact H.
  - rewrite IH, paths_add. split.
    + intros [[->|H]|(g & Hg & ->)]; [right; exists f; split; [now left|reflexivity]|now left|right; exists g; split; [now right|reflexivity]].
    + intros [H|(g & [<-|Hg] & ->)]; [auto|auto|right; eauto].
Qed.
Lemma paths_destroys ps : forall s p, inv s -> (In p (paths (fold_left destroy ps s)) <-> In p (paths s) /\ ~ In p ps).
Proof.
  induction ps as [|q ps IH]; intros s p I; cbn [fold_left].
  - cbn [In]. tauto.
  - rewrite IH by now apply inv_destroy. rewrite (paths_destroy s q p I). cbn [In]. split; [intros [[H1 H2] H3]|intros [H1 H2]]; repeat split; try tauto.
    intros [H|H]; [now subst|auto]. intro; subst; auto.
Qed.

Lemma fresh_mono l : forall k1 k2, (forall p : bytes, In p k2 -> In p k1) -> fresh_adds path_of k1 l -> fresh_adds path_of k2 l.
Proof.
  induction l as [|g l IHl]; intros k1 k2 He; cbn [fresh_adds]; [auto|]. intros [H1 H2]. split; [auto|].
  eapply IHl; [|exact H2]. intro p. cbn [In]. intros [?|?]; auto.
Qed.
Lemma tidy_adds fs : forall s, inv s -> (tidy (fold_left (add path_of) fs s) <-> tidy s /\ fresh_adds path_of (paths s) fs).
Proof.
  induction fs as [|f fs IH]; intros s I; cbn [fold_left fresh_adds]; [tauto|].
  rewrite IH by now apply inv_add. rewrite (tidy_add s f I).
  assert (E : forall p, In p (paths (add path_of s f)) <-> In p (pof f :: paths s)).
  { intro p. rewrite paths_add. cbn [In]. split; intros [H|H]; auto. }
  split.
  - intros [[H1 H2] H3]. split; [assumption|]. split; [assumption|]. eapply fresh_mono; [|exact H3]. intro p. apply E.
  - intros [H1 [H2 H3]]. split; [auto|]. eapply fresh_mono; [|exact H3]. intro p. apply E.
Qed.
Lemma tidy_destroys ps : forall s, inv s -> (tidy (fold_left destroy ps s) <-> tidy s).
Proof.
  induction ps as [|p ps IH]; intros s I; cbn [fold_left]; [tauto|]. rewrite IH by now apply inv_destroy. split; [|now apply tidy_destroy].
  intro T. assert (D : forall i, In i (live s) -> In i (ids s)).
  { intros i Hi. destruct (in_dec Nat.eq_dec i (ids s)) as [H|H]; [assumption|]. exfalso. revert T. apply untidy_destroy; [assumption|]. intro T. now apply H, T. }
  exact D.
Qed.

Lemma destroy_all_empty s : inv s -> caches (fold_left destroy (map fst (caches s)) s) = [].
Proof.
  intro I. destruct (caches (fold_left destroy (map fst (caches s)) s)) as [|e l] eqn:E; [reflexivity|].
  exfalso. assert (H : In (fst e) (paths (fold_left destroy (map fst (caches s)) s))) by (unfold paths; rewrite E; now left).
  apply paths_destroys in H; [|assumption]. unfold paths in H. tauto.
Qed.
Lemma destroy_all_eq s : inv s -> destroy_all s = fold_left destroy (map fst (caches s)) s.
Proof.
  intro I. unfold destroy_all. rewrite <- (destroy_all_empty s I). now destruct (fold_left destroy (map fst (caches s)) s).
Qed.

Lemma inv_step s o : inv s -> inv (step path_of s o).
Proof.
  intro I. destruct o as [fs|a r| |]; cbn [step].
  - now apply inv_adds.
  - apply inv_destroys. now apply inv_adds.
  - apply inv_adds. rewrite destroy_all_eq by assumption. now apply inv_destroys.
  - rewrite destroy_all_eq by assumption. now apply inv_destroys.
Qed.
Lemma inv_fold ops : forall s, inv s -> inv (fold_left (step path_of) ops s).
Proof. induction ops as [|o ops IH]; intros s I; [assumption|]. cbn [fold_left]. apply IH. now apply inv_step. Qed.
Lemma inv_run ops : inv (run path_of ops).
Proof. apply inv_fold, inv_init. Qed.

(** the folders of a state have different paths *)
Lemma fresh_nodup fs : forall k, NoDup (map (fun f => pof f) fs) -> (forall f, In f fs -> ~ In (pof f) k) -> fresh_adds path_of k fs.
Proof.
  induction fs as [|f fs IH]; intros k Hn Hk; cbn [fresh_adds]; [exact I|]. cbn [map] in Hn. inversion Hn; subst. split; [apply Hk; now left|].
  apply IH; [assumption|]. intros g Hg [H|H].
  - apply H1. rewrite H. apply in_map_iff. exists g. auto.
  - revert H. apply Hk. now right.
Qed.
Lemma reindex_fresh s : inv s -> fresh_adds path_of [] (map (fun e => snd (snd e)) (caches s)).
Proof.
  intro I. apply fresh_nodup; [|intros f _ []]. rewrite map_map. rewrite (map_ext_in _ fst); [apply (i_nodup _ I)|].
  intros [p [i f]] H. cbn [fst snd]. symmetry. now apply (i_path _ I p i f).
Qed.

Lemma tidy_step s o : inv s -> (tidy (step path_of s o) <-> tidy s /\ match o with Initialize fs | ChangeFolders fs _ => fresh_adds path_of (paths s) fs | _ => True end).
Proof.
  intro I. destruct o as [fs|a r| |]; cbn [step].
  - now apply tidy_adds.
  - rewrite tidy_destroys by now apply inv_adds. now apply tidy_adds.
  - rewrite destroy_all_eq by assumption. rewrite tidy_adds by now apply inv_destroys. rewrite tidy_destroys by assumption.
    unfold paths. rewrite destroy_all_empty by assumption. cbn [map]. pose proof (reindex_fresh s I). tauto.
  - rewrite destroy_all_eq by assumption. rewrite tidy_destroys by assumption. tauto.
Qed.
Lemma tidy_fold ops : forall s, inv s -> (tidy (fold_left (step path_of) ops s) <-> tidy s /\ no_readd path_of s ops).
Proof.
  induction ops as [|o ops IH]; intros s I; cbn [fold_left no_readd]; [tauto|].
  rewrite IH by now apply inv_step. rewrite (tidy_step s o I). tauto.
Qed.

(** what reindexing leaves *)
Lemma adds_fresh_caches fs : forall s, inv s -> fresh_adds path_of (paths s) fs ->
  forall p f, (exists i, In (p, (i, f)) (caches (fold_left (add path_of) fs s)) /\ next s <= i) \/ (exists i, In (p, (i, f)) (caches s)) <->
              (p = pof f /\ In f fs) \/ exists i, In (p, (i, f)) (caches s).
Proof.
  intros s I HF p f. split.
  - intros [(i & H & Hi)|H]; [|auto]. revert s I HF H Hi. induction fs as [|g fs IH]; intros s I HF H Hi; cbn [fold_left] in H.
    + right. eauto.
    + cbn [fresh_adds] in HF. destruct HF as [HF1 HF2].
      assert (HF' : fresh_adds path_of (paths (add path_of s g)) fs).
      { eapply fresh_mono; [|exact HF2]. intros x Hx. apply paths_add in Hx. destruct Hx as [Hx|Hx]; [left; auto|now right]. }
      destruct (Nat.eq_dec i (next s)) as [Hx|Hx].
      * subst i. clear IH. (* the cache created now *)
        assert (K : forall l t, inv t -> next s < next t -> In (p, (next s, f)) (caches (fold_left (add path_of) l t)) -> In (p, (next s, f)) (caches t)).
        { clear. induction l as [|h l IHl]; intros t It Ht Hc; cbn [fold_left] in Hc; [assumption|].
          apply IHl in Hc; [|now apply inv_add|unfold add; cbn [next]; lia]. unfold add in Hc. cbn [caches] in Hc. unfold aset in Hc.
          destruct Hc as [Hc|Hc]; [injection Hc as _ Hc _; lia|]. now apply in_adel in Hc. }
        apply K in H; [|now apply inv_add|unfold add; cbn [next]; lia]. unfold add in H. cbn [caches] in H. unfold aset in H.
        destruct H as [H|H]; [injection H as <- <-; left; split; [reflexivity|now left]|]. apply in_adel in H as [H _].
        pose proof (i_old _ I (next s)) as Ho. exfalso. assert (next s < next s); [|lia]. apply Ho. left. unfold ids. apply in_map_iff. exists (p, (next s, f)). auto.
      * destruct (IH (add path_of s g)) as [[Hp Hf]|(i' & H')]; [now apply inv_add|exact HF'|exact H|unfold add; cbn [next]; lia| |].
        -- left. split; [assumption|now right].
        -- unfold add in H'. cbn [caches] in H'. unfold aset in H'. destruct H' as [H'|H']; [injection H' as <- _ <-; left; split; [reflexivity|now left]|].
           apply in_adel in H' as [H' _]. right. eauto.
  - intros [[-> Hf]|H]; [|auto]. left. revert s I HF. induction fs as [|g fs IH]; intros s I HF; [contradiction|]. cbn [fold_left].
    cbn [fresh_adds] in HF. destruct HF as [HF1 HF2].
    assert (K : forall l t i, fresh_adds path_of (pof f :: []) l -> In (pof f, (i, f)) (caches t) -> In (pof f, (i, f)) (caches (fold_left (add path_of) l t))).
    { clear. induction l as [|h l IHl]; intros t i HF Hc; cbn [fold_left]; [assumption|]. cbn [fresh_adds] in HF. destruct HF as [H1 H2].
      apply IHl.
      - eapply fresh_mono; [|exact H2]. intros q [<-|[]]. right. now left.
      - unfold add. cbn [caches]. unfold aset. right. apply in_adel. split; [assumption|]. cbn [fst]. intro Hx. apply H1. rewrite <- Hx. now left. }
    destruct Hf as [->|Hf].
    + exists (next s). split; [|lia]. apply K.
      * eapply fresh_mono; [|exact HF2]. intros q [<-|[]]. now left.
      * unfold add. cbn [caches]. unfold aset. now left.
    + destruct (IH Hf (add path_of s g)) as (i & Hi & Hle); [now apply inv_add| |].
      * eapply fresh_mono; [|exact HF2]. intros q Hq. apply paths_add in Hq. destruct Hq as [Hq|Hq]; [left; auto|now right].
      * exists i. split; [assumption|]. unfold add in Hle. cbn [next] in Hle. lia.
Qed.

Lemma next_destroys ps : forall s, next (fold_left destroy ps s) = next s.
Proof.
  induction ps as [|p ps IH]; intro s; [reflexivity|]. cbn [fold_left]. rewrite IH. unfold destroy.
  destruct (aget p (caches s)); [|reflexivity]. now destruct (aget p (cancels s)).
Qed.
Lemma adds_new fs : forall s p i f, In (p, (i, f)) (caches (fold_left (add path_of) fs s)) -> next s <= i \/ In (p, (i, f)) (caches s).
Proof.
  induction fs as [|g fs IH]; intros s p i f H; [auto|]. cbn [fold_left] in H. apply IH in H. unfold add in H. cbn [caches next] in H.
  destruct H as [H|H]; [left; lia|]. unfold aset in H. destruct H as [H|H]; [left; injection H as _ <- _; lia|]. apply in_adel in H as [H _]. auto.
Qed.
Lemma reindex_spec s : inv s -> forall p f,
  (exists i, In (p, (i, f)) (caches (step path_of s Reindex)) /\ next s <= i) <-> exists i, In (p, (i, f)) (caches s).
Proof.
  intros I p f. cbn [step]. rewrite destroy_all_eq by assumption.
  pose proof (inv_destroys (map fst (caches s)) s I) as Id.
  pose proof (adds_fresh_caches (map (fun e => snd (snd e)) (caches s)) _ Id) as H.
  rewrite next_destroys in H. unfold paths in H. rewrite (destroy_all_empty s I) in H. cbn [map] in H.
  specialize (H (reindex_fresh s I) p f). split.
  - intros (i & H1 & H2). destruct (proj1 H (or_introl (ex_intro _ i (conj H1 H2)))) as [[-> Hin]|(j & [])].
    apply in_map_iff in Hin as ([q [j g]] & Hg & Hin). cbn [snd] in Hg. subst g. exists j. pose proof (i_path _ I q j f Hin) as Hq. now subst q.
  - intros (i & Hin). destruct (proj2 H) as [Hx|(j & [])]; [|exact Hx]. left. split; [now apply (i_path _ I p i f)|].
    apply in_map_iff. exists (p, (i, f)). auto.
Qed.
Lemma reindex_fresh_ids s : inv s -> forall p i f, In (p, (i, f)) (caches (step path_of s Reindex)) -> next s <= i.
Proof.
  intros I p i f H. cbn [step] in H. rewrite destroy_all_eq in H by assumption. apply adds_new in H as [H|H].
  - now rewrite next_destroys in H.
  - rewrite destroy_all_empty in H by assumption. contradiction.
Qed.
End Folders.

(** ** Open documents *)
Section Docs.
Variable disk : bytes -> option bytes.
Variable dv : Z.

Lemma apply_other ms : forall m u, (forall e, In e ms -> match e with MOpen u' _ _ | MChange u' _ _ => u' <> u end) -> fold_left apply_mod ms m u = m u.
Proof.
  induction ms as [|e ms IH]; intros m u H; [reflexivity|]. cbn [fold_left]. rewrite IH; [|intros e' He'; apply H; now right].
  specialize (H e (or_introl eq_refl)). destruct e; cbn [apply_mod]; rewrite (proj2 (beq_neq _ _)); auto.
Qed.
Lemma replay_uri o e : In e (replay disk dv o) -> match e with MOpen u' _ _ | MChange u' _ _ => u' = o_uri o end.
Proof.
  unfold replay. destruct (disk (o_uri o)); [|contradiction]. intros [<-|H]; [reflexivity|]. destruct (o_same o); [contradiction|].
  destruct H as [<-|[]]. reflexivity.
Qed.
Lemma replay_others os u : (forall o, In o os -> o_uri o <> u) -> forall m, fold_left apply_mod (flat_map (replay disk dv) os) m u = m u.
Proof.
  intros H m. apply apply_other. intros e He. apply in_flat_map in He as (o & Ho & He). apply replay_uri in He. specialize (H o Ho). destruct e; congruence.
Qed.
Lemma reindexed_doc os : forall o, NoDup (map o_uri os) -> In o os ->
  reindexed disk dv os (o_uri o) =
  match disk (o_uri o) with
  | None => None
  | Some t => if o_same o then Some (dv, t) else Some (Z.max (o_version o) 2, o_text o)
  end.
Proof.
  intros o Hn Hin. unfold reindexed. apply in_split in Hin as (l1 & l2 & ->). rewrite map_app in Hn. cbn [map] in Hn.
  pose proof (NoDup_remove_2 _ _ _ Hn) as Hno. rewrite flat_map_app, fold_left_app. cbn [flat_map]. rewrite fold_left_app.
  rewrite replay_others by (intros o' Ho' Hx; apply Hno; apply in_or_app; right; rewrite <- Hx; apply in_map_iff; eauto).
  set (m0 := fold_left apply_mod (flat_map (replay disk dv) l1) (fun _ => None)).
  assert (E : m0 (o_uri o) = None).
  { unfold m0. rewrite replay_others; [reflexivity|]. intros o' Ho' Hx. apply Hno. apply in_or_app. left. rewrite <- Hx. apply in_map_iff. eauto. }
  unfold replay. destruct (disk (o_uri o)) as [t|]; [|exact E]. destruct (o_same o); cbn [fold_left apply_mod]; now rewrite beq_refl.
Qed.
Lemma reindexed_none os u : (forall o, In o os -> o_uri o <> u) -> reindexed disk dv os u = None.
Proof. intro H. unfold reindexed. now rewrite replay_others. Qed.
End Docs.

(** ** The lock *)
Definition mode_of_counts (ms : list (mode * bool)) : nat * nat * nat :=
  (List.length (filter (fun x => match fst x with MRead => true | _ => false end) ms),
   List.length (filter (fun x => match fst x with MWrite => true | _ => false end) ms),
   List.length (filter (fun x => snd x) ms)).

Definition b2n (b : bool) : nat := if b then 1 else 0.
(** each thread has a mode; the lock and the counters agree with the modes *)
Record ok (s : mstate) (ms : list (mode * bool)) : Prop := {
  ok_len : List.length ms = List.length (m_threads s);
  ok_guard : forall i p m b, nth_error (m_threads s) i = Some p -> nth_error ms i = Some (m, b) -> guarded m b p;
  ok_counts : mode_of_counts ms = (m_readers s, b2n (m_writer s), m_iters s);
  ok_excl : m_writer s = true -> m_readers s = 0;
  ok_iter : forall i m b, nth_error ms i = Some (m, b) -> b = true -> m <> MNone;
  ok_fatal : m_fatal s = false
}.

Lemma nth_set {A} i (x y : A) l : nth_error l i = Some y -> forall j, nth_error (set_nth i x l) j = if j =? i then Some x else nth_error l j.
Proof.
  intros H j. unfold set_nth. pose proof (proj1 (nth_error_Some l i)) as Hi. assert (Hlt : i < List.length l) by (apply Hi; congruence).
  destruct (Nat.eqb_spec j i) as [->|Hj].
  - rewrite nth_error_app2; rewrite firstn_length_le by lia; [|lia]. now rewrite Nat.sub_diag.
  - destruct (Nat.lt_ge_cases j i) as [Hl|Hl].
    + rewrite nth_error_app1 by (rewrite firstn_length_le; lia). clear -Hl. revert i l Hl; induction j; intros [|i] [|a l] Hl; try lia; cbn; auto. apply IHj. lia.
    + rewrite nth_error_app2; rewrite firstn_length_le by lia; [|lia]. destruct (j - i) as [|k] eqn:E; [lia|]. cbn [nth_error].
      replace j with (S i + k) by lia. clear. revert l. generalize (S i) as n. induction n; intro l; [reflexivity|]. destruct l; cbn; [now destruct k|]. apply IHn.
Qed.
Lemma set_nth_len {A} i (x y : A) l : nth_error l i = Some y -> List.length (set_nth i x l) = List.length l.
Proof.
  intro H. pose proof (proj1 (nth_error_Some l i)) as Hi. assert (Hlt : i < List.length l) by (apply Hi; congruence).
  unfold set_nth. rewrite app_length. cbn [List.length]. rewrite firstn_length_le, skipn_length by lia. lia.
Qed.
Lemma count_set {A} (f : A -> bool) i x y l : nth_error l i = Some y ->
  List.length (filter f (set_nth i x l)) + b2n (f y) = List.length (filter f l) + b2n (f x).
Proof.
  revert i; induction l as [|z l IH]; intros [|i] H; try discriminate.
  - injection H as ->. unfold set_nth. cbn [firstn skipn app filter]. destruct (f x), (f y); cbn [List.length b2n]; lia.
  - cbn [nth_error] in H. specialize (IH i H). unfold set_nth in *. change (skipn (S (S i)) (z :: l)) with (skipn (S i) l).
    change (firstn (S i) (z :: l)) with (z :: firstn i l). cbn [app]. cbn [filter]. destruct (f z); cbn [List.length]; lia.
Qed.

Lemma count_pos {A} (f : A -> bool) i x l : nth_error l i = Some x -> f x = true -> 0 < List.length (filter f l).
Proof.
  intros H Hf. apply nth_error_In in H. assert (Hin : In x (filter f l)) by now apply filter_In. destruct (filter f l); [contradiction|cbn; lia].
Qed.
Lemma counts_zero_none {A} (f : A -> bool) l : List.length (filter f l) = 0 -> forall i x, nth_error l i = Some x -> f x = false.
Proof. intros H i x Hx. destruct (f x) eqn:E; [|reflexivity]. pose proof (count_pos f i x l Hx E). lia. Qed.

Lemma ok_move s ms i p m b m' b' p' : ok s ms -> nth_error (m_threads s) i = Some p -> nth_error ms i = Some (m, b) ->
  guarded m' b' p' -> (b' = true -> m' <> MNone) ->
  List.length (set_nth i (m', b') ms) = List.length (set_nth i p' (m_threads s)) /\
  (forall j q n c, nth_error (set_nth i p' (m_threads s)) j = Some q -> nth_error (set_nth i (m', b') ms) j = Some (n, c) -> guarded n c q) /\
  (forall j n c, nth_error (set_nth i (m', b') ms) j = Some (n, c) -> c = true -> n <> MNone).
Proof.
  intros O Hp Hm Hg Hb. rewrite (set_nth_len _ _ _ _ Hp), (set_nth_len _ _ _ _ Hm). split; [apply (ok_len _ _ O)|]. split.
  - intros j q n c. rewrite (nth_set _ _ _ _ Hp), (nth_set _ _ _ _ Hm). destruct (Nat.eqb_spec j i).
    + intros [= <-] [= <- <-]. exact Hg.
    + apply (ok_guard _ _ O).
  - intros j n c. rewrite (nth_set _ _ _ _ Hm). destruct (Nat.eqb_spec j i).
    + intros [= <- <-]. exact Hb.
    + apply (ok_iter _ _ O).
Qed.

Lemma ok_step s ms i s' : ok s ms -> mstep i s = Some s' -> exists ms', ok s' ms'.
Proof.
  intros O H. unfold mstep in H. destruct (nth_error (m_threads s) i) as [p|] eqn:Ep; [|discriminate].
  destruct (nth_error ms i) as [[m b]|] eqn:Em; [|exfalso; apply nth_error_None in Em; rewrite (ok_len _ _ O) in Em; apply nth_error_None in Em; congruence].
  pose proof (ok_guard _ _ O i p m b Ep Em) as G. pose proof (ok_counts _ _ O) as C. unfold mode_of_counts in C. injection C as C1 C2 C3.
  pose proof (ok_excl _ _ O) as X. pose proof (ok_fatal _ _ O) as F. pose proof (ok_iter _ _ O i m b Em) as It.
  assert (D : forall m' b', 
     List.length (filter (fun x => match fst x with MRead => true | _ => false end) (set_nth i (m', b') ms)) + b2n (match m with MRead => true | _ => false end) = m_readers s + b2n (match m' with MRead => true | _ => false end) /\
     List.length (filter (fun x => match fst x with MWrite => true | _ => false end) (set_nth i (m', b') ms)) + b2n (match m with MWrite => true | _ => false end) = b2n (m_writer s) + b2n (match m' with MWrite => true | _ => false end) /\
     List.length (filter (fun x => snd x) (set_nth i (m', b') ms)) + b2n b = m_iters s + b2n b').
  { intros m' b'. rewrite <- C1, <- C2, <- C3.
    pose proof (count_set (fun x : mode * bool => match fst x with MRead => true | _ => false end) i (m', b') (m, b) ms Em) as D1.
    pose proof (count_set (fun x : mode * bool => match fst x with MWrite => true | _ => false end) i (m', b') (m, b) ms Em) as D2.
    pose proof (count_set (fun x : mode * bool => snd x) i (m', b') (m, b) ms Em) as D3. cbn [fst snd] in *. auto. }
  destruct p as [|a p]; [discriminate|]. destruct a; cbn [guarded] in G.
  - destruct G as (-> & -> & G). destruct (m_writer s) eqn:W; [discriminate|]. injection H as <-. exists (set_nth i (MRead, false) ms).
    destruct (ok_move s ms i _ _ _ MRead false p O Ep Em G) as (H1 & H2 & H3); [discriminate|]. destruct (D MRead false) as (D1 & D2 & D3). cbn [b2n] in *.
    split; cbn [m_threads m_readers m_writer m_iters m_fatal]; auto; [|discriminate]. unfold mode_of_counts. cbn [b2n]. f_equal; [f_equal|]; lia.
  - destruct G as (-> & -> & G). injection H as <-. exists (set_nth i (MNone, false) ms).
    destruct (ok_move s ms i _ _ _ MNone false p O Ep Em G) as (H1 & H2 & H3); [discriminate|]. destruct (D MNone false) as (D1 & D2 & D3). cbn [b2n] in *.
    split; cbn [m_threads m_readers m_writer m_iters m_fatal]; auto; [|intro W; rewrite X by exact W; reflexivity]. unfold mode_of_counts. f_equal; [f_equal|]; lia.
  - destruct G as (-> & -> & G). destruct (m_writer s) eqn:W; cbn [orb] in H; [discriminate|]. destruct (Nat.eqb_spec (m_readers s) 0) as [R|R]; cbn [negb] in H; [|discriminate].
    injection H as <-. exists (set_nth i (MWrite, false) ms).
    destruct (ok_move s ms i _ _ _ MWrite false p O Ep Em G) as (H1 & H2 & H3); [discriminate|]. destruct (D MWrite false) as (D1 & D2 & D3). cbn [b2n] in *.
    split; cbn [m_threads m_readers m_writer m_iters m_fatal]; auto. unfold mode_of_counts. cbn [b2n]. f_equal; [f_equal|]; lia.
  - destruct G as (-> & -> & G). injection H as <-. exists (set_nth i (MNone, false) ms).
    destruct (ok_move s ms i _ _ _ MNone false p O Ep Em G) as (H1 & H2 & H3); [discriminate|]. destruct (D MNone false) as (D1 & D2 & D3). cbn [b2n] in *.
    split; cbn [m_threads m_readers m_writer m_iters m_fatal]; auto; [|discriminate]. unfold mode_of_counts. cbn [b2n]. destruct (m_writer s); cbn [b2n] in *; (f_equal; [f_equal|]; lia).
  - destruct G as (Hm & -> & G). injection H as <-. exists (set_nth i (m, true) ms).
    destruct (ok_move s ms i _ _ _ m true p O Ep Em G) as (H1 & H2 & H3); [auto|]. destruct (D m true) as (D1 & D2 & D3). cbn [b2n] in *.
    split; cbn [m_threads m_readers m_writer m_iters m_fatal]; auto. unfold mode_of_counts. f_equal; [f_equal|]; lia.
  - destruct G as (-> & G). injection H as <-. exists (set_nth i (m, false) ms).
    destruct (ok_move s ms i _ _ _ m false p O Ep Em G) as (H1 & H2 & H3); [discriminate|]. destruct (D m false) as (D1 & D2 & D3). cbn [b2n] in *.
    split; cbn [m_threads m_readers m_writer m_iters m_fatal]; auto. unfold mode_of_counts. f_equal; [f_equal|]; lia.
  - destruct G as (-> & -> & G). injection H as <-. exists (set_nth i (MWrite, false) ms).
    destruct (ok_move s ms i _ _ _ MWrite false p O Ep Em G) as (H1 & H2 & H3); [discriminate|]. destruct (D MWrite false) as (D1 & D2 & D3). cbn [b2n] in *.
    (* nobody iterates: an iterating thread would be a reader, excluded by the writer, or the writer itself *)
    assert (W : m_writer s = true).
    { pose proof (count_pos (fun x : mode * bool => match fst x with MWrite => true | _ => false end) i _ ms Em eq_refl). destruct (m_writer s); [reflexivity|cbn [b2n] in *; lia]. }
    assert (Z : m_iters s = 0).
    { rewrite <- C3. destruct (filter (fun x => snd x) ms) as [|[n c] l] eqn:E; [reflexivity|]. exfalso.
      assert (Hin : In (n, c) (filter (fun x => snd x) ms)) by (rewrite E; now left). apply filter_In in Hin as [Hin Hc]. cbn [snd] in Hc. subst c.
      apply In_nth_error in Hin as [j Hj]. pose proof (ok_iter _ _ O j n true Hj eq_refl) as Hn. specialize (X W).
      destruct n; [congruence| |].
      - pose proof (count_pos (fun x : mode * bool => match fst x with MRead => true | _ => false end) j _ ms Hj eq_refl). lia.
      - (* the only writer is thread i, which does not iterate *)
        assert (Hij : j <> i) by (intro; subst; congruence).
        pose proof (count_set (fun x : mode * bool => match fst x with MWrite => true | _ => false end) i (MNone, false) (MWrite, false) ms Em) as Q.
        cbn [fst b2n] in Q. assert (Hj' : nth_error (set_nth i (MNone, false) ms) j = Some (MWrite, true)) by (rewrite (nth_set _ _ _ _ Em); now rewrite (proj2 (Nat.eqb_neq j i) Hij)).
        pose proof (count_pos (fun x : mode * bool => match fst x with MWrite => true | _ => false end) j _ _ Hj' eq_refl).
        rewrite W in C2. cbn [b2n] in C2. lia. }
    split; cbn [m_threads m_readers m_writer m_iters m_fatal]; auto; [|rewrite F, Z; reflexivity]. unfold mode_of_counts. f_equal; [f_equal|]; lia.
Qed.

Lemma ok_init ps : Forall (guarded MNone false) ps -> ok (minit ps) (map (fun _ => (MNone, false)) ps).
Proof.
  intro H. split; cbn [minit m_threads m_readers m_writer m_iters m_fatal]; auto.
  - now rewrite map_length.
  - intros i p m b Hp Hm. rewrite nth_error_map, Hp in Hm. cbn [option_map] in Hm. injection Hm as <- <-.
    apply (proj1 (Forall_forall _ _) H). now apply nth_error_In in Hp.
  - unfold mode_of_counts. cbn [b2n]. assert (G : forall f : mode * bool -> bool, f (MNone, false) = false -> List.length (filter f (map (fun _ => (MNone, false)) ps)) = 0).
    { clear. intros f Hf. induction ps as [|p ps IH]; [reflexivity|]. cbn [map filter]. now rewrite Hf. }
    now rewrite !G.
  - intros i m b Hm Hb. apply nth_error_In in Hm. apply in_map_iff in Hm as (p & Hx & _). congruence.
Qed.
Lemma ok_run sched : forall s ms s', ok s ms -> mrun sched s = Some s' -> m_fatal s' = false.
Proof.
  induction sched as [|i r IH]; intros s ms s' O H; cbn [mrun] in H.
  - injection H as <-. apply (ok_fatal _ _ O).
  - destruct (mstep i s) as [t|] eqn:E; [|discriminate]. destruct (ok_step _ _ _ _ O E) as [ms' O']. eauto.
Qed.
Lemma guarded_program r : guarded MNone false (program r) <-> match r with RSymbol => False | RShutdown n => n = 0 | _ => True end.
Proof.
  assert (W : forall n, guarded MWrite false (repeat Write n ++ [WU])) by (induction n; cbn [repeat app guarded]; auto).
  destruct r as [| |n|n| |n]; cbn [program guarded].
  - intuition discriminate.
  - intuition discriminate.
  - split; auto.
  - split; [auto|]. intros _. repeat split; auto; discriminate.
  - tauto.
  - destruct n; cbn [repeat guarded]; split; auto; intros; [intuition discriminate|discriminate].
Qed.

(** ** Imports *)
Lemma index_spec x l : match index_of x l with
  | Some i => nth_error l i = Some x /\ ~ In x (firstn i l) /\ i < List.length l
  | None => ~ In x l end.
Proof.
  induction l as [|y l IH]; cbn [index_of]; [auto|]. destruct (beq y x) eqn:E.
  - apply beq_eq in E. subst. cbn. split; [reflexivity|split; [auto|lia]].
  - apply beq_neq in E. destruct (index_of x l) as [i|].
    + destruct IH as (H1 & H2 & H3). cbn [nth_error firstn List.length]. split; [assumption|split; [|lia]]. intros [H|H]; [congruence|auto].
    + intros [H|H]; [congruence|auto].
Qed.

Lemma filter_deps_used names deps : ~ In descriptor_proto names -> forall l1 l2, deps = l1 ++ descriptor_proto :: l2 -> ~ In descriptor_proto l1 ->
  filter_deps names deps = (l1 ++ l2, l1 ++ l2 ++ [last deps []]).
Proof.
  intros Hn l1 l2 -> Hl. unfold filter_deps.
  assert (E : existsb (fun n => beq n descriptor_proto) names = false).
  { apply not_true_iff_false. intro H. apply existsb_exists in H as (x & Hx & He). apply beq_eq in He. now subst. }
  rewrite E. assert (Hi : index_of descriptor_proto (l1 ++ descriptor_proto :: l2) = Some (List.length l1)).
  { clear E Hn. induction l1 as [|y l1 IH]; cbn [app index_of]; [now rewrite beq_refl|].
    rewrite (proj2 (beq_neq _ _)) by (intro; subst; apply Hl; now left). rewrite IH; [reflexivity|]. intro H. apply Hl. now right. }
  rewrite Hi. cbv zeta. rewrite firstn_app, firstn_all, Nat.sub_diag. cbn [firstn]. rewrite app_nil_r.
  assert (Hs : skipn (S (List.length l1)) (l1 ++ descriptor_proto :: l2) = l2).
  { clear. induction l1 as [|y l1 IH]; [reflexivity|]. exact IH. }
  rewrite Hs, <- app_assoc. do 3 f_equal.
  assert (G : forall (l : list bytes) x, l <> [] -> skipn (List.length l - 1) l = [last l x]).
  { clear. intros l x H. destruct (exists_last H) as (r & y & ->). rewrite last_last, app_length. cbn [List.length]. replace (List.length r + 1 - 1) with (List.length r) by lia.
    rewrite skipn_app, Nat.sub_diag, skipn_all. reflexivity. }
  apply G. intro H. destruct l1; discriminate.
Qed.
Lemma filter_deps_same names deps : In descriptor_proto names \/ ~ In descriptor_proto deps -> filter_deps names deps = (deps, deps).
Proof.
  intro H. unfold filter_deps. destruct (existsb _ names) eqn:E; [reflexivity|]. destruct H as [H|H].
  - exfalso. apply not_true_iff_false in E. apply E. apply existsb_exists. exists descriptor_proto. split; [assumption|apply beq_refl].
  - pose proof (index_spec descriptor_proto deps) as Hi. destruct (index_of descriptor_proto deps) as [i|]; [|reflexivity]. destruct Hi as (Hi & _). apply nth_error_In in Hi. contradiction.
Qed.

Lemma link_loop_ok {A} (resolve : bytes -> option A) names : forall i deps, List.length names <= List.length deps ->
  exists r, link_loop resolve i names deps = Ok r /\
    forall k t, In (k, t) r <-> i <= k /\ k < i + List.length names /\ exists d, nth_error deps (k - i) = Some d /\ resolve d = Some t.
Proof.
  induction names as [|n ns IH]; intros i deps H; cbn [link_loop List.length] in *.
  - exists []. split; [reflexivity|]. intros k t. split; [contradiction|]. lia.
  - destruct deps as [|d ds]; cbn [List.length] in H; [lia|]. destruct (IH (S i) ds) as (r & E & Hr); [lia|]. rewrite E. eexists. split; [reflexivity|].
    intros k t. destruct (Nat.eq_dec k i) as [->|Hk].
    + rewrite Nat.sub_diag. cbn [nth_error]. destruct (resolve d) as [t'|] eqn:Er.
      * cbn [In]. split.
        -- intros [[= <-]|Hin]; [repeat split; [lia|lia|eauto]|]. apply Hr in Hin. lia.
        -- intros (_ & _ & d' & [= <-] & Hd'). left. congruence.
      * split; [intro Hin; apply Hr in Hin; lia|]. intros (_ & _ & d' & [= <-] & Hd'). congruence.
    + assert (Hx : In (k, t) (match resolve d with Some t' => (i, t') :: r | None => r end) <-> In (k, t) r).
      { destruct (resolve d); [|tauto]. cbn [In]. split; [intros [[= Hc _]|Hc]; [congruence|assumption]|auto]. }
      rewrite Hx, Hr. destruct (Nat.lt_ge_cases k i) as [Hl|Hl].
      * split; lia.
      * replace (k - i) with (S (k - S i)) by lia. cbn [nth_error]. split; intros (H1 & H2 & H3); (repeat split; [lia|lia|exact H3]).
Qed.
Lemma link_loop_panic {A} (resolve : bytes -> option A) names : forall i deps, List.length deps < List.length names -> link_loop resolve i names deps = IndexPanic.
Proof.
  induction names as [|n ns IH]; intros i deps H; cbn [List.length] in H; [lia|]. cbn [link_loop]. destruct deps as [|d ds]; [reflexivity|].
  cbn [List.length] in H. rewrite IH by lia. reflexivity.
Qed.

Lemma hint_loop_in names : forall i deps r, hint_loop i names deps = Ok r -> forall h, In h r ->
  exists k n q e d, nth_error names k = Some (n, q, e) /\ nth_error deps k = Some d /\ h_import h = i + k /\ In h (import_hint (i + k) n d q e).
Proof.
  induction names as [|[[n q] e] ns IH]; intros i deps r H h Hh; cbn [hint_loop] in H.
  - injection H as <-. contradiction.
  - destruct deps as [|d ds]; [discriminate|]. destruct (hint_loop (S i) ns ds) as [r'|] eqn:E; [|discriminate]. injection H as <-.
    apply in_app_or in Hh as [Hh|Hh].
    + exists 0, n, q, e, d. rewrite Nat.add_0_r. repeat split; auto. unfold import_hint in Hh. destruct (beq d n); [contradiction|].
      destruct (has_suffix d n); destruct Hh as [<-|[]]; reflexivity.
    + destruct (IH _ _ _ E h Hh) as (k & n' & q' & e' & d' & H1 & H2 & H3 & H4). exists (S k), n', q', e', d'. cbn [nth_error].
      replace (i + S k) with (S i + k) by lia. auto.
Qed.
Lemma hint_loop_complete names : forall i deps r, hint_loop i names deps = Ok r ->
  forall k n q e d, nth_error names k = Some (n, q, e) -> nth_error deps k = Some d -> d <> n -> exists h, In h r /\ h_import h = i + k /\ h_new h = d.
Proof.
  induction names as [|[[n0 q0] e0] ns IH]; intros i deps r H k n q e d Hk Hd Hne; [destruct k; discriminate|]. cbn [hint_loop] in H.
  destruct deps as [|d0 ds]; [discriminate|]. destruct (hint_loop (S i) ns ds) as [r'|] eqn:E; [|discriminate]. injection H as <-.
  destruct k as [|k]; cbn [nth_error] in *.
  - injection Hk as -> -> ->. injection Hd as ->. unfold import_hint. rewrite (proj2 (beq_neq _ _) Hne). rewrite Nat.add_0_r.
    destruct (has_suffix d n); eexists; (split; [left; reflexivity|split; reflexivity]).
  - destruct (IH _ _ _ E k n q e d Hk Hd Hne) as (h & H1 & H2 & H3). exists h. split; [apply in_or_app; now right|]. split; [lia|assumption].
Qed.
Lemma trim_suffix_spec l p : trim_suffix (l ++ p) p = l.
Proof.
  unfold trim_suffix. replace (has_suffix (l ++ p) p) with true by (symmetry; apply has_suffix_spec; eauto).
  rewrite app_length. replace (List.length l + List.length p - List.length p) with (List.length l) by lia. rewrite firstn_app, firstn_all, Nat.sub_diag. cbn [firstn]. apply app_nil_r.
Qed.
