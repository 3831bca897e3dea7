(** Facts about path.Clean, path.Dir, path.Base and path.Join on lists of ordinary components.
    Library only: nothing here models code of /repo. *)
From Coq Require Import Ascii String.
From Verif Require Import Base Strs.
Open Scope list_scope.

(** a path component other than the empty one, "." and ".." *)
Definition normal (c : bytes) : Prop := c <> [] /\ c <> dot1 /\ c <> dot2 /\ ~ In slash c.
(** the absolute and the relative path with the given components *)
Definition abs (cs : list bytes) : bytes := slash :: join_with slash cs.
Definition rel (cs : list bytes) : bytes := join_with slash cs.

Lemma normal_ne c : normal c -> c <> []. Proof. now intros []. Qed.
Lemma normal_slash c : normal c -> ~ In slash c. Proof. now intros (_ & _ & _ & H). Qed.
Lemma normals_slash cs : Forall normal cs -> forall w, In w cs -> ~ In slash w.
Proof. intros H w Hw. apply normal_slash. now apply (proj1 (Forall_forall _ _) H). Qed.

Lemma join_app c a b : a <> [] -> b <> [] -> join_with c (a ++ b) = join_with c a ++ c :: join_with c b.
Proof.
  intros Ha Hb. induction a as [|x a IH]; [congruence|]. destruct a as [|y a].
  - cbn. destruct b; [congruence|reflexivity].
  - change (x ++ c :: join_with c ((y :: a) ++ b) = (x ++ c :: join_with c (y :: a)) ++ c :: join_with c b).
    rewrite IH by discriminate. rewrite <- app_assoc. reflexivity.
Qed.
Lemma join_cons c x a : a <> [] -> join_with c (x :: a) = x ++ c :: join_with c a.
Proof. destruct a; [congruence|reflexivity]. Qed.
Lemma join_snoc c a x : a <> [] -> join_with c (a ++ [x]) = join_with c a ++ c :: x.
Proof. intro H. now rewrite join_app by (auto; discriminate). Qed.

Lemma split_rel cs : cs <> [] -> Forall normal cs -> split_on slash (rel cs) = cs.
Proof. intros N H. apply split_join; [exact N|]. now apply normals_slash. Qed.
Lemma split_abs cs : Forall normal cs -> split_on slash (abs cs) = [] :: match cs with [] => [[]] | _ => cs end.
Proof.
  intros H. unfold abs. cbn [split_on]. rewrite Ascii.eqb_refl. f_equal. destruct cs; [reflexivity|]. apply split_rel; [discriminate|exact H].
Qed.

Lemma clean_normal r cs : forall acc, Forall normal cs -> clean_comps r acc cs = rev acc ++ cs.
Proof.
  induction cs as [|c cs IH]; intros acc H; cbn [clean_comps]; [now rewrite app_nil_r|].
  inversion H as [|? ? (N1 & N2 & N3 & _) H']; subst.
  rewrite (proj2 (beq_neq _ _) N1), (proj2 (beq_neq _ _) N2), (proj2 (beq_neq _ _) N3). cbn [orb].
  rewrite IH by exact H'. cbn. now rewrite <- app_assoc.
Qed.
Lemma clean_app r a : forall acc b, Forall normal a -> clean_comps r acc (a ++ b) = clean_comps r (rev a ++ acc) b.
Proof.
  induction a as [|c cs IH]; intros acc b H; [reflexivity|]. cbn [app clean_comps].
  inversion H as [|? ? (N1 & N2 & N3 & _) H']; subst.
  rewrite (proj2 (beq_neq _ _) N1), (proj2 (beq_neq _ _) N2), (proj2 (beq_neq _ _) N3). cbn [orb].
  rewrite IH by exact H'. cbn. now rewrite <- app_assoc.
Qed.
Lemma rooted_cons s : is_rooted (slash :: s) = true.
Proof. unfold is_rooted. cbn [has_prefix]. now rewrite has_prefix_nil. Qed.
Lemma rooted_more x s t : is_rooted (x :: s) = false -> is_rooted ((x :: s) ++ t) = false.
Proof. unfold is_rooted. cbn [app has_prefix]. now rewrite !has_prefix_nil. Qed.
Lemma rooted_abs cs : is_rooted (abs cs) = true.
Proof. apply rooted_cons. Qed.
Lemma rooted_rel cs : Forall normal cs -> is_rooted (rel cs) = false.
Proof.
  intro H. unfold rel, is_rooted. destruct cs as [|c cs]; [reflexivity|]. inversion H as [|? ? (N1 & _ & _ & N4) H']; subst.
  destruct c as [|x c]; [congruence|].
  assert (X : slash <> x) by (intro; subst x; apply N4; now left).
  apply Ascii.eqb_neq in X. destruct cs; cbn [join_with app]; unfold has_prefix; now rewrite X.
Qed.
Lemma clean_abs cs : Forall normal cs -> path_clean (abs cs) = abs cs.
Proof.
  intro H. unfold path_clean. rewrite rooted_abs, split_abs by exact H. cbn [clean_comps beq].
  destruct cs as [|c cs]; [reflexivity|]. cbn [beq]. change (beq [] []) with true. cbn [orb]. now rewrite clean_normal by exact H.
Qed.
Lemma clean_rel cs : cs <> [] -> Forall normal cs -> path_clean (rel cs) = rel cs.
Proof.
  intros N H. unfold path_clean. rewrite rooted_rel, split_rel by assumption. rewrite clean_normal by exact H. cbn. now destruct cs.
Qed.
Lemma split_trailing cs : cs <> [] -> Forall normal cs -> split_on slash (rel cs ++ [slash]) = cs ++ [[]].
Proof.
  intros N H. change (rel cs ++ [slash]) with (join_with slash cs ++ slash :: join_with slash [[]]).
  rewrite <- join_app by (auto; discriminate). apply split_join; [now destruct cs|].
  intros w Hw. apply in_app_iff in Hw. destruct Hw as [Hw|[<-|[]]]; [now apply (normals_slash cs)|intros []].
Qed.
Lemma clean_abs_trailing cs : Forall normal cs -> path_clean (abs cs ++ [slash]) = abs cs.
Proof.
  intro H. destruct cs as [|c cs]; [reflexivity|]. unfold path_clean, abs. cbn [app].
  rewrite rooted_cons. cbn [split_on]. change (join_with slash (c :: cs)) with (rel (c :: cs)). rewrite Ascii.eqb_refl.
  rewrite split_trailing by (auto; discriminate). cbn [clean_comps]. change (beq [] []) with true. cbn [orb].
  rewrite clean_app by exact H. cbn [clean_comps]. change (beq [] []) with true. cbn [orb]. now rewrite app_nil_r, rev_involutive.
Qed.
Lemma clean_rel_trailing cs : cs <> [] -> Forall normal cs -> path_clean (rel cs ++ [slash]) = rel cs.
Proof.
  intros N H. unfold path_clean. assert (R : is_rooted (rel cs ++ [slash]) = false).
  { pose proof (rooted_rel cs H) as R. destruct (rel cs) as [|x s] eqn:E; [|now apply rooted_more].
    exfalso. destruct cs as [|c cs]; [congruence|]. inversion H as [|? ? (N1 & _) _]; subst. destruct c; [congruence|]. destruct cs; discriminate. }
  rewrite R, split_trailing by assumption. rewrite clean_app by exact H. cbn [clean_comps]. change (beq [] []) with true. cbn [orb].
  rewrite app_nil_r, rev_involutive. now destruct cs.
Qed.

Lemma cut_last_split d f : ~ In slash f -> cut_last_slash (d ++ slash :: f) = (d ++ [slash], f).
Proof.
  intro H. induction d as [|x d IH].
  - cbn [app cut_last_slash]. assert (E : cut_last_slash f = ([], f)).
    { clear -H. induction f as [|x f IH]; [reflexivity|]. cbn [cut_last_slash]. rewrite IH by (intro X; apply H; now right).
      destruct (Ascii.eqb_spec x slash) as [->|N]; [elim H; now left|reflexivity]. }
    rewrite E. now rewrite Ascii.eqb_refl.
  - cbn [app cut_last_slash]. rewrite IH. destruct d; reflexivity.
Qed.
Lemma cut_last_none f : ~ In slash f -> cut_last_slash f = ([], f).
Proof.
  intro H. induction f as [|x f IH]; [reflexivity|]. cbn [cut_last_slash]. rewrite IH by (intro X; apply H; now right).
  destruct (Ascii.eqb_spec x slash) as [->|N]; [elim H; now left|reflexivity].
Qed.
Lemma abs_snoc cs f : abs (cs ++ [f]) = match cs with [] => [slash] ++ f | _ => abs cs ++ slash :: f end.
Proof. unfold abs. destruct cs; [reflexivity|]. rewrite join_snoc by discriminate. reflexivity. Qed.
Lemma dir_abs cs f : Forall normal cs -> ~ In slash f -> path_dir (abs (cs ++ [f])) = abs cs.
Proof.
  intros H Hf. unfold path_dir. rewrite abs_snoc. destruct cs as [|c cs].
  - change ([slash] ++ f) with ([] ++ slash :: f). rewrite cut_last_split by exact Hf. reflexivity.
  - rewrite cut_last_split by exact Hf. now apply clean_abs_trailing.
Qed.
Lemma dir_rel cs f : Forall normal cs -> ~ In slash f -> path_dir (rel (cs ++ [f])) = match cs with [] => dot1 | _ => rel cs end.
Proof.
  intros H Hf. unfold path_dir, rel. destruct cs as [|c cs].
  - cbn [app join_with]. rewrite cut_last_none by exact Hf. reflexivity.
  - rewrite join_snoc by discriminate. rewrite cut_last_split by exact Hf. apply clean_rel_trailing; [discriminate|exact H].
Qed.
Lemma strip_slashes_id s : match s with x :: _ => x <> slash | [] => True end -> strip_slashes s = s.
Proof. destruct s as [|x s]; [reflexivity|]. intro H. cbn. now rewrite (proj2 (Ascii.eqb_neq _ _) H). Qed.
Lemma strip_id s x : x <> slash -> rev (strip_slashes (rev (s ++ [x]))) = s ++ [x].
Proof. intro H. rewrite strip_slashes_id; [apply rev_involutive|]. rewrite rev_app_distr. exact H. Qed.
Lemma base_split d f : f <> [] -> ~ In slash f -> path_base (d ++ slash :: f) = f.
Proof.
  intros N H. unfold path_base. destruct (d ++ slash :: f) eqn:E; [now destruct d|]. rewrite <- E. clear E.
  destruct (exists_last N) as (f' & x & ->).
  assert (X : x <> slash) by (intro; subst x; apply H; apply in_app_iff; right; now left).
  replace (d ++ slash :: f' ++ [x]) with ((d ++ slash :: f') ++ [x]) by (now rewrite <- app_assoc).
  rewrite strip_id by exact X. rewrite <- app_assoc. cbn [app].
  rewrite cut_last_split by exact H. cbn [snd]. destruct (f' ++ [x]) eqn:E; [now destruct f'|reflexivity].
Qed.
Lemma base_noslash f : f <> [] -> ~ In slash f -> path_base f = f.
Proof.
  intros N H. unfold path_base. destruct f as [|y f0] eqn:E; [congruence|]. rewrite <- E in *. clear E.
  destruct (exists_last N) as (f' & x & ->).
  assert (X : x <> slash) by (intro; subst x; apply H; apply in_app_iff; right; now left).
  rewrite strip_id by exact X. rewrite cut_last_none by exact H. cbn [snd]. destruct (f' ++ [x]) eqn:E; [now destruct f'|reflexivity].
Qed.
Lemma base_abs cs f : f <> [] -> ~ In slash f -> path_base (abs (cs ++ [f])) = f.
Proof. intros N H. rewrite abs_snoc. destruct cs; [now apply (base_split [])|now apply base_split]. Qed.
Lemma base_rel cs f : f <> [] -> ~ In slash f -> path_base (rel (cs ++ [f])) = f.
Proof. intros N H. unfold rel. destruct cs; [now apply base_noslash|]. rewrite join_snoc by discriminate. now apply base_split. Qed.

Lemma rel_ne cs : cs <> [] -> Forall normal cs -> rel cs <> [].
Proof. destruct cs as [|c cs]; [congruence|]. intros _ H. inversion H as [|? ? (N1 & _) _]; subst. destruct c; [congruence|]. now destruct cs. Qed.
Lemma join_rel a b : a <> [] -> b <> [] -> Forall normal a -> Forall normal b -> path_join (rel a) (rel b) = rel (a ++ b).
Proof.
  intros Na Nb Ha Hb. unfold path_join. pose proof (rel_ne a Na Ha). pose proof (rel_ne b Nb Hb).
  destruct (rel a) eqn:Ea; [congruence|]. destruct (rel b) eqn:Eb; [congruence|]. rewrite <- Ea, <- Eb.
  unfold rel. rewrite <- join_app by assumption. apply clean_rel; [now destruct a|]. now apply Forall_app.
Qed.
Lemma join_abs a b : b <> [] -> Forall normal a -> Forall normal b -> path_join (abs a) (rel b) = abs (a ++ b).
Proof.
  intros Nb Ha Hb. unfold path_join. pose proof (rel_ne b Nb Hb).
  change (abs a) with (slash :: rel a) at 1. cbn [app]. destruct (rel b) eqn:Eb; [congruence|]. rewrite <- Eb.
  destruct a as [|x a].
  - change (path_clean ((slash :: rel []) ++ slash :: rel b) = abs b). unfold path_clean. cbn [app rel join_with].
    rewrite rooted_cons. cbn [split_on]. rewrite !Ascii.eqb_refl, split_rel by assumption.
    cbn [clean_comps]. change (beq [] []) with true. cbn [orb]. now rewrite clean_normal by exact Hb.
  - change (path_clean (slash :: (rel (x :: a) ++ slash :: rel b)) = abs ((x :: a) ++ b)). unfold rel.
    rewrite <- join_app by (auto; discriminate). apply clean_abs. now apply Forall_app.
Qed.
Lemma join_rel_dot a : a <> [] -> Forall normal a -> path_join (rel a) dot1 = rel a.
Proof.
  intros Na Ha. unfold path_join. pose proof (rel_ne a Na Ha). destruct (rel a) eqn:Ea; [congruence|]. rewrite <- Ea.
  cbn [dot1 b_ list_ascii_of_string]. unfold path_clean.
  assert (R : is_rooted (rel a ++ slash :: dot1) = false).
  { pose proof (rooted_rel a Ha) as R. rewrite Ea in *. now apply rooted_more. }
  change ["."%char] with dot1. rewrite R.
  change (rel a ++ slash :: dot1) with (join_with slash a ++ slash :: join_with slash [dot1]).
  rewrite <- join_app by (auto; discriminate).
  rewrite split_join; [|now destruct a|].
  - rewrite clean_app by exact Ha. cbn [clean_comps]. change (beq dot1 dot1) with true. rewrite orb_true_r. rewrite app_nil_r, rev_involutive. now destruct a.
  - intros w Hw. apply in_app_iff in Hw. destruct Hw as [Hw|[<-|[]]]; [now apply (normals_slash a)|]. intros [X|[]]. discriminate.
Qed.
