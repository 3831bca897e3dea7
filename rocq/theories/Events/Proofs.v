From Coq Require Import ZArith List Bool Lia.
From Verif Require Import Base.
From Verif.Versions Require Import Model.
From Verif.Documents Require Import Model Spec Proofs.
From Verif.Events Require Import Model Spec.
Import ListNotations.

(** ** Dispatch *)
Lemma put_delivered c m g c' : NoDup (map fst g) -> delivered c' (put c m g) = delivered c' g ++ (if Nat.eqb c c' then [m] else []).
Proof.
  induction g as [|[k ms] g IH]; intros N; cbn [put].
  - cbn. destruct (Nat.eqb c c'); reflexivity.
  - cbn in N. inversion N as [|? ? N1 N2]; subst. destruct (Nat.eqb_spec k c) as [->|Hk].
    + cbn [delivered flat_map fst snd]. destruct (Nat.eqb_spec c c') as [->|Hc]; [|now rewrite app_nil_r].
      assert (D : flat_map (fun e => if Nat.eqb (fst e) c' then snd e else []) g = []). { clear -N1. induction g as [|[k l] g IH]; [reflexivity|]. cbn in *. destruct (Nat.eqb_spec k c') as [->|]; [destruct N1; now left|]. apply IH. intros X. apply N1. now right. }
      rewrite D, !app_nil_r. reflexivity.
    + cbn [delivered flat_map fst snd]. fold (delivered c' (put c m g)). fold (delivered c' g). rewrite IH by exact N2. now rewrite app_assoc.
Qed.
Lemma put_keys c m g : map fst (put c m g) = if existsb (Nat.eqb c) (map fst g) then map fst g else map fst g ++ [c].
Proof.
  induction g as [|[k ms] g IH]; [reflexivity|]. cbn [put map fst existsb]. rewrite (Nat.eqb_sym c k). destruct (Nat.eqb k c); cbn [orb map fst]; [reflexivity|]. rewrite IH. destruct (existsb (Nat.eqb c) (map fst g)); reflexivity.
Qed.
Lemma put_nodup c m g : NoDup (map fst g) -> NoDup (map fst (put c m g)).
Proof.
  intros N. rewrite put_keys. destruct (existsb (Nat.eqb c) (map fst g)) eqn:E; [exact N|].
  assert (~ In c (map fst g)). { intros X. assert (existsb (Nat.eqb c) (map fst g) = true) by (apply existsb_exists; exists c; split; [exact X|apply Nat.eqb_refl]). congruence. }
  clear E. induction (map fst g) as [|x l IH]; cbn; [repeat constructor; auto|]. inversion N as [|? ? N1 N2]; subst. constructor.
  - intros X. apply in_app_iff in X as [X|[<-|[]]]; [contradiction|]. apply H. now left.
  - apply IH; [exact N2|]. intros X. apply H. now right.
Qed.
Definition on_disk (g : groups) : Prop := forall c m, In m (delivered c g) -> m_version m = (-1)%Z /\ m_proto m = false.
Lemma put_disk c u a g : on_disk g -> on_disk (put c (disk u a) g).
Proof.
  intro H. induction g as [|[k ms] g IH]; intros c' m I.
  - cbn in I. destruct (Nat.eqb c c'); [destruct I as [<-|[]]; split; reflexivity|destruct I].
  - assert (G : on_disk g) by (intros c1 m1 I1; apply (H c1); cbn; apply in_or_app; now right). cbn [put] in I. destruct (Nat.eqb k c) eqn:E; cbn in I; apply in_app_or in I as [I|I].
    + destruct (Nat.eqb k c') eqn:E'; [|destruct I]. apply in_app_or in I as [I|[<-|[]]]; [|split; reflexivity]. apply (H c'). cbn. rewrite E'. apply in_or_app. now left.
    + exact (G c' m I).
    + apply (H c'). cbn. apply in_or_app. now left.
    + exact (IH G c' m I).
Qed.
Lemma watched_disk is_file cache_for l : forall g, on_disk g -> on_disk (watched is_file cache_for l g).
Proof. induction l as [|[u t] l IH]; intros g H; [exact H|]. cbn [watched]. destruct (is_file u); [destruct (cache_for u)|]; apply IH; try exact H. now apply put_disk. Qed.
Lemma all_disk cache_for a us : forall g g', on_disk g -> all_or_error cache_for a us g = Some g' -> on_disk g'.
Proof. induction us as [|u us IH]; intros g g' H E; cbn [all_or_error] in E; [now injection E as <-|]. destruct (cache_for u); [|discriminate]. eapply IH; [|exact E]. now apply put_disk. Qed.
Lemma renamed_disk cache_for l : forall g g', on_disk g -> renamed cache_for l g = Some g' -> on_disk g'.
Proof. induction l as [|[o n] l IH]; intros g g' H E; cbn [renamed] in E; [now injection E as <-|]. destruct (cache_for o), (cache_for n); try discriminate. eapply IH; [|exact E]. now repeat apply put_disk. Qed.
Section D.
Variable is_file : uri -> bool.
Variable cache_for : uri -> option cache.
Notation conc := (concerns is_file cache_for).
Lemma step_delivered u a c g c' : is_file u = true -> cache_for u = Some c -> NoDup (map fst g) ->
  map told (delivered c' (put c (disk u a) g)) = map told (delivered c' g) ++ filter (conc c') [(u, a)].
Proof.
  intros F E N. rewrite put_delivered, map_app by exact N. f_equal. cbn. unfold concerns. cbn [fst]. rewrite F, E. cbn. destruct (Nat.eqb c c'); reflexivity.
Qed.
Lemma filter_cons1 {A} (f : A -> bool) x l : filter f (x :: l) = filter f [x] ++ filter f l.
Proof. cbn. destruct (f x); reflexivity. Qed.
Lemma watched_delivered l : forall g, NoDup (map fst g) -> NoDup (map fst (watched is_file cache_for l g)) /\
  forall c, map told (delivered c (watched is_file cache_for l g)) = map told (delivered c g) ++ filter (conc c) (events (Watched l)).
Proof.
  induction l as [|[u t] l IH]; intros g N.
  - cbn. split; [exact N|]. intros c. now rewrite app_nil_r.
  - cbn [watched]. change (events (Watched ((u, t) :: l))) with ((u, file_action t) :: events (Watched l)).
    destruct (is_file u) eqn:F; [destruct (cache_for u) as [c0|] eqn:E|].
    + destruct (IH (put c0 (disk u (file_action t)) g)) as [H1 H2]; [now apply put_nodup|]. split; [exact H1|]. intros c. rewrite H2, (step_delivered u _ c0 g c F E N), <- app_assoc, <- filter_cons1. reflexivity.
    + destruct (IH g N) as [H1 H2]. split; [exact H1|]. intros c. rewrite H2. f_equal. rewrite filter_cons1. cbn [filter]. unfold concerns at 2. cbn [fst]. rewrite E, andb_false_r. reflexivity.
    + destruct (IH g N) as [H1 H2]. split; [exact H1|]. intros c. rewrite H2. f_equal. rewrite filter_cons1. cbn [filter]. unfold concerns at 2. cbn [fst]. rewrite F. reflexivity.
Qed.
Lemma all_delivered a us : (forall u, In u us -> is_file u = true) -> forall g g', NoDup (map fst g) -> all_or_error cache_for a us g = Some g' -> NoDup (map fst g') /\
  forall c, map told (delivered c g') = map told (delivered c g) ++ filter (conc c) (map (fun u => (u, a)) us).
Proof.
  induction us as [|u us IH]; intros F g g' N H; cbn [all_or_error] in H.
  - injection H as <-. split; [exact N|]. intros c. cbn. now rewrite app_nil_r.
  - destruct (cache_for u) as [c0|] eqn:E; [|discriminate]. apply IH in H as [H1 H2]; [|intros v Hv; apply F; now right|now apply put_nodup]. split; [exact H1|]. intros c. rewrite H2, (step_delivered u a c0 g c) by (auto; apply F; now left).
    rewrite <- app_assoc. cbn [map]. now rewrite <- filter_cons1.
Qed.
Lemma renamed_delivered l : (forall o n, In (o, n) l -> is_file o = true /\ is_file n = true) -> forall g g', NoDup (map fst g) -> renamed cache_for l g = Some g' -> NoDup (map fst g') /\
  forall c, map told (delivered c g') = map told (delivered c g) ++ filter (conc c) (events (DidRename l)).
Proof.
  induction l as [|[o n] l IH]; intros F g g' N H; cbn [renamed] in H.
  - injection H as <-. split; [exact N|]. intros c. cbn. now rewrite app_nil_r.
  - destruct (cache_for o) as [oc|] eqn:Eo; [|discriminate]. destruct (cache_for n) as [nc|] eqn:En; [|discriminate]. destruct (F o n (or_introl eq_refl)) as [Fo Fn].
    apply IH in H as [H1 H2]; [|intros x y Hv; apply F; now right|now repeat apply put_nodup]. split; [exact H1|]. intros c.
    rewrite H2, (step_delivered n _ nc _ c Fn En), (step_delivered o _ oc g c Fo Eo N) by now apply put_nodup.
    change (events (DidRename ((o, n) :: l))) with ([(o, ADelete); (n, ACreate)] ++ events (DidRename l)). rewrite filter_app, (filter_cons1 _ (o, ADelete) [(n, ACreate)]). now rewrite <- !app_assoc.
Qed.
Lemma all_some a us : forall g, (exists g', all_or_error cache_for a us g = Some g') <-> forall u, In u us -> cache_for u <> None.
Proof.
  induction us as [|u us IH]; intros g; cbn [all_or_error]; [split; [contradiction|eauto]|]. destruct (cache_for u) as [c|] eqn:E.
  - rewrite IH. split; [intros H v [<-|Hv]; [congruence|auto]|]. intros H v Hv. apply H. now right.
  - split; [intros [? ?]; discriminate|]. intros H. destruct (H u (or_introl eq_refl) E).
Qed.
Lemma renamed_some l : forall g, (exists g', renamed cache_for l g = Some g') <-> forall o n, In (o, n) l -> cache_for o <> None /\ cache_for n <> None.
Proof.
  induction l as [|[o n] l IH]; intros g; cbn [renamed]; [split; [contradiction|eauto]|].
  destruct (cache_for o) as [oc|] eqn:Eo; [destruct (cache_for n) as [nc|] eqn:En|].
  - rewrite IH. split; [intros H x y [X|Hv]; [injection X as <- <-; split; congruence|auto]|]. intros H x y Hv. apply H. now right.
  - split; [intros [? ?]; discriminate|]. intros H. destruct (H o n (or_introl eq_refl)) as [_ X]. destruct (X En).
  - split; [intros [? ?]; discriminate|]. intros H. destruct (H o n (or_introl eq_refl)) as [X _]. destruct (X Eo).
Qed.
End D.

(** ** Panics *)
Lemma delete_at_len {A} (l : list A) : forall i, match delete_at l i with Some l' => i < length l /\ S (length l') = length l | None => length l <= i end.
Proof.
  induction l as [|x l IH]; intros i; cbn [delete_at]; [cbn; lia|]. destruct i as [|i]; [cbn; lia|]. specialize (IH i). destruct (delete_at l i); cbn; lia.
Qed.
Lemma delete_all_spec {A} idxs : forall l : list A, (exists l', delete_all l idxs = Some l') <-> forall k i, nth_error idxs k = Some i -> i + k < length l.
Proof.
  induction idxs as [|i idxs IH]; intros l; cbn [delete_all].
  - split; [intros _ k j H; destruct k; discriminate|eauto].
  - pose proof (delete_at_len l i) as D. destruct (delete_at l i) as [l1|]; [rewrite IH|].
    + split.
      * intros H [|k] j E; cbn in E; [injection E as <-; lia|]. specialize (H k j E). lia.
      * intros H k j E. specialize (H (S k) j E). lia.
    + split; [intros [? ?]; discriminate|]. intros H. specialize (H 0 i eq_refl). lia.
Qed.
Lemma idxs_snoc e mods : forall i, idxs e i mods = fst (scan e i mods).
Proof. intros i. symmetry. apply scan_fst. Qed.
Lemma modify_panics w mods : modify w mods = None <-> exists k i, nth_error (idxs (mkEnv (known w) (update w mods) (rd_fails w) (rd_version w)) 0 mods) k = Some i /\ length mods <= i + k.
Proof.
  unfold modify, did_modify. set (e := mkEnv _ _ _ _). pose proof (scan_fst e 0 mods) as S0. destruct (scan e 0 mods) as [del rec]. cbn [fst] in S0. subst del.
  pose proof (delete_all_spec (idxs e 0 mods) mods) as D. destruct (delete_all mods (idxs e 0 mods)) as [l'|].
  - split; [discriminate|]. intros (k & i & E & L). assert (i + k < length mods) by (apply (proj1 D); eauto). lia.
  - split; [|reflexivity]. intros _.
    assert (N : ~ forall k i, nth_error (idxs e 0 mods) k = Some i -> i + k < length mods). { intros X. apply D in X as [? ?]. discriminate. }
    clear -N. remember (idxs e 0 mods) as l. clear Heql.
    assert (G : forall n, (forall k, k < n -> forall i, nth_error l k = Some i -> i + k < length mods) \/ exists k i, nth_error l k = Some i /\ length mods <= i + k).
    { induction n as [|n [IH|IH]]; [left; lia| |now right]. destruct (nth_error l n) as [i|] eqn:E.
      - destruct (le_lt_dec (length mods) (i + n)); [right; eauto|]. left. intros k Hk j Ej. destruct (Nat.eq_dec k n) as [->|]; [congruence|]. apply IH; [lia|exact Ej].
      - left. intros k Hk j Ej. destruct (Nat.eq_dec k n) as [->|]; [congruence|]. apply IH; [lia|exact Ej]. }
    destruct (G (length l)) as [X|X]; [|exact X]. destruct N. intros k i E. apply X; [|exact E]. apply nth_error_Some. congruence.
Qed.

Lemma set_same k u p : set k u p u = p.
Proof. unfold set. now rewrite Nat.eqb_refl. Qed.
Lemma set_other k u p v : v <> u -> set k u p v = k v.
Proof. intros H. unfold set. destruct (Nat.eqb_spec v u); [contradiction|reflexivity]. Qed.
Lemma deletes_gone w us : forall k u, k u = None \/ In u us -> fold_left (update1 w) (map (fun u => disk u ADelete) us) k u = None.
Proof.
  induction us as [|v us IH]; intros k u H; cbn [map fold_left]; [destruct H as [H|[]]; exact H|]. apply IH. cbn. destruct (Nat.eq_dec u v) as [->|N].
  - left. apply set_same.
  - destruct H as [H|[H|H]]; [left; now rewrite set_other|congruence|now right].
Qed.
Lemma idxs_all e mods : (forall m, In m mods -> resolvable e m = false) -> forall i, idxs e i mods = seq i (length mods).
Proof.
  induction mods as [|m mods IH]; intros H i; [reflexivity|]. cbn. rewrite unresolved_resolvable, (H m (or_introl eq_refl)). cbn. f_equal. apply IH. intros x Hx. apply H. now right.
Qed.
Lemma many_deletes w us : 2 <= length us -> modify w (map (fun u => disk u ADelete) us) = None.
Proof.
  intros L. apply modify_panics. set (mods := map (fun u => disk u ADelete) us). set (e := mkEnv _ _ _ _).
  rewrite (idxs_all e mods).
  - exists (length us - 1), (length us - 1). unfold mods. rewrite map_length. split; [|lia].
    rewrite (nth_error_nth' _ 0) by (rewrite seq_length; lia). rewrite seq_nth by lia. reflexivity.
  - intros m Hm. unfold mods in Hm. apply in_map_iff in Hm as (u & <- & Hu). cbn. unfold update, mods. rewrite deletes_gone; [reflexivity|now right].
Qed.

(** renames *)
Definition rename_mods (l : list (uri * uri)) : list modification := flat_map (fun '(o, n) => [disk o ADelete; disk n ACreate]) l.
Lemma rename_length l : length (rename_mods l) = 2 * length l.
Proof. induction l as [|[o n] l IH]; [reflexivity|]. change (rename_mods ((o, n) :: l)) with (disk o ADelete :: disk n ACreate :: rename_mods l). cbn [length]. rewrite IH. lia. Qed.
Lemma renames_keep w l : forall k u, (forall o n, In (o, n) l -> u <> o /\ u <> n) -> fold_left (update1 w) (rename_mods l) k u = k u.
Proof.
  induction l as [|[o n] l IH]; intros k u H; [reflexivity|]. cbn [rename_mods flat_map app fold_left]. fold (rename_mods l). destruct (H o n (or_introl eq_refl)) as [H1 H2].
  rewrite IH by (intros x y Hxy; apply H; now right). cbn. destruct (on_create w n); rewrite ?set_other; auto.
Qed.
Definition apart (l : list (uri * uri)) : Prop := NoDup (map fst l ++ map snd l).
Lemma apart_cons o n l : apart ((o, n) :: l) -> apart l /\ o <> n /\ (forall x y, In (x, y) l -> o <> x /\ o <> y /\ n <> x /\ n <> y).
Proof.
  unfold apart. cbn. intros N. inversion N as [|? ? N1 N2]; subst. pose proof (NoDup_remove_1 _ _ _ N2) as N3. pose proof (NoDup_remove_2 _ _ _ N2) as N4.
  split; [exact N3|]. split.
  - intros ->. apply N1. apply in_app_iff. right. now left.
  - intros x y H. repeat split; intros ->.
    + apply N1. apply in_app_iff. left. change x with (fst (x, y)). now apply in_map.
    + apply N1. apply in_app_iff. right. right. change y with (snd (x, y)). now apply in_map.
    + apply N4. apply in_app_iff. left. change x with (fst (x, y)). now apply in_map.
    + apply N4. apply in_app_iff. right. change y with (snd (x, y)). now apply in_map.
Qed.
Lemma renames_end w l : apart l -> (forall o n, In (o, n) l -> on_create w n <> None) -> forall k o n, In (o, n) l -> fold_left (update1 w) (rename_mods l) k o = None /\ fold_left (update1 w) (rename_mods l) k n = on_create w n.
Proof.
  induction l as [|[o n] l IH]; intros A C k x y H; [contradiction|]. apply apart_cons in A as (A1 & A2 & A3). cbn [rename_mods flat_map app fold_left]. fold (rename_mods l). destruct H as [H|H].
  - injection H as <- <-. assert (Cn := C o n (or_introl eq_refl)). split.
    + rewrite renames_keep by (intros x y Hxy; destruct (A3 x y Hxy) as (?&?&_); auto). cbn. destruct (on_create w n); [rewrite set_other by exact A2|]; apply set_same.
    + rewrite renames_keep by (intros x y Hxy; destruct (A3 x y Hxy) as (_&_&?&?); auto). cbn. destruct (on_create w n); [|congruence]. now rewrite set_same.
  - apply IH; auto. intros a b Hab. apply (C a b). now right.
Qed.
Fixpoint evens (i n : nat) : list nat := match n with 0 => [] | S n' => i :: evens (S (S i)) n' end.
Lemma idxs_renames e l : (forall o n, In (o, n) l -> path_after e o = None /\ path_after e n <> None) -> forall i, idxs e i (rename_mods l) = evens i (length l).
Proof.
  induction l as [|[o n] l IH]; intros H i; [reflexivity|]. cbn [rename_mods flat_map app length evens idxs]. fold (rename_mods l).
  destruct (H o n (or_introl eq_refl)) as [H1 H2]. rewrite !unresolved_resolvable. cbn [resolvable disk m_action m_uri m_proto]. rewrite H1. destruct (path_after e n); [|congruence]. cbn. f_equal. apply IH. intros x y Hxy. apply H. now right.
Qed.
Lemma evens_nth n : forall i k, k < n -> nth_error (evens i n) k = Some (i + 2 * k).
Proof. induction n as [|n IH]; intros i k H; [lia|]. destruct k as [|k]; cbn [evens nth_error]; [f_equal; lia|]. rewrite IH by lia. f_equal. lia. Qed.
Lemma many_renames w l : apart l -> (forall o n, In (o, n) l -> on_create w n <> None) -> 3 <= length l -> modify w (rename_mods l) = None.
Proof.
  intros A C L. apply modify_panics. set (e := mkEnv _ _ _ _). rewrite (idxs_renames e l).
  - exists (length l - 1), (0 + 2 * (length l - 1)). rewrite evens_nth by lia. split; [reflexivity|]. rewrite rename_length. lia.
  - intros o n H. unfold e, update. cbn [path_after]. destruct (renames_end w l A C (known w) o n H) as [-> ->]. split; [reflexivity|]. now apply (C o n).
Qed.
Lemma creates_end w us : (forall u, In u us -> on_create w u <> None) -> forall k u, In u us -> fold_left (update1 w) (map (fun u => disk u ACreate) us) k u = on_create w u.
Proof.
  assert (K : forall us, (forall u, In u us -> on_create w u <> None) -> forall k u, (k u = on_create w u \/ In u us) -> fold_left (update1 w) (map (fun u => disk u ACreate) us) k u = on_create w u).
  { clear us. induction us as [|v us IH]; intros C k u H; cbn [map fold_left]; [destruct H as [H|[]]; exact H|]. apply IH; [intros x Hx; apply C; now right|]. cbn. pose proof (C v (or_introl eq_refl)) as Cv. destruct (on_create w v) as [p|] eqn:E; [|congruence].
    destruct (Nat.eq_dec u v) as [->|N]; [left; rewrite set_same; auto|]. rewrite set_other by exact N. destruct H as [H|[H|H]]; [now left|congruence|now right]. }
  intros C k u H. apply K; auto.
Qed.
