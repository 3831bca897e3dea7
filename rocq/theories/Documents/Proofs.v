From Coq Require Import Ascii.
From Verif Require Import Base.
From Verif.Versions Require Import Model Spec.
From Verif.Versions Require Proofs.
From Verif.Documents Require Import Model Spec Positions.

(* ---------- C05 ---------- *)
Lemma unresolved_resolvable e m : unresolved e m = negb (resolvable e m).
Proof.
  unfold unresolved, resolvable, skipped.
  destruct (m_action m), (m_proto m), (path_after e (m_uri m)); reflexivity.
Qed.

(** indices of the unresolved events *)
Fixpoint idxs (e : env) (i : nat) (mods : list modification) : list nat :=
  match mods with
  | [] => []
  | m :: r => if unresolved e m then i :: idxs e (S i) r else idxs e (S i) r
  end.

Lemma scan_fst e i mods : fst (scan e i mods) = idxs e i mods.
Proof.
  revert i; induction mods as [|m mods IH]; intros i; cbn; [reflexivity|].
  rewrite <- IH. destruct (scan e (S i) mods) as [d r]. unfold unresolved.
  destruct (skipped m); cbn; [reflexivity|].
  now destruct (path_after e (m_uri m)).
Qed.

Lemma idxs_length e i mods : length (idxs e i mods) = unresolvable_count e mods.
Proof.
  unfold unresolvable_count. revert i; induction mods as [|m mods IH]; intros i; cbn; [reflexivity|].
  rewrite unresolved_resolvable. destruct (negb (resolvable e m)); cbn; now rewrite IH.
Qed.

Lemma filter_all e mods : unresolvable_count e mods = 0 -> filter (resolvable e) mods = mods.
Proof.
  unfold unresolvable_count. induction mods as [|m mods IH]; cbn; [reflexivity|].
  destruct (resolvable e m); cbn; [intros; now rewrite IH|discriminate].
Qed.

Lemma idxs_ge e i mods k : In k (idxs e i mods) -> i <= k.
Proof.
  revert i; induction mods as [|m mods IH]; intros i; cbn; [tauto|].
  destruct (unresolved e m); [intros [<-|H]|intros H]; try lia; apply IH in H; lia.
Qed.

Lemma delete_at_0_shift {A} (l pre : list A) k :
  delete_at (pre ++ l) (length pre + k) = option_map (app pre) (delete_at l k).
Proof.
  induction pre as [|x pre IH]; cbn.
  - now destruct (delete_at l k).
  - rewrite IH. now destruct (delete_at l k).
Qed.

Lemma delete_one e mods pre :
  unresolvable_count e mods <= 1 ->
  delete_all (pre ++ mods) (idxs e (length pre) mods)
  = Some (pre ++ filter (resolvable e) mods).
Proof.
  revert pre; induction mods as [|m mods IH]; intros pre H; cbn [idxs filter].
  - reflexivity.
  - rewrite unresolved_resolvable. unfold unresolvable_count in H. cbn [filter] in H.
    destruct (resolvable e m) eqn:Er; cbn [negb] in *.
    + specialize (IH (pre ++ [m])). rewrite app_length in IH. cbn [length] in IH.
      rewrite Nat.add_1_r, <- app_assoc in IH. cbn [app] in IH. rewrite IH by exact H.
      now rewrite <- app_assoc.
    + cbn [length] in H. fold (unresolvable_count e mods) in H.
      assert (H0 : unresolvable_count e mods = 0) by lia.
      assert (idxs e (S (length pre)) mods = []) as ->.
      { apply length_zero_iff_nil. now rewrite idxs_length. }
      cbn [delete_all]. rewrite <- (Nat.add_0_r (length pre)), delete_at_0_shift. cbn.
      now rewrite filter_all.
Qed.

Lemma did_modify_at_most_one e mods :
  unresolvable_count e mods <= 1 ->
  exists o, did_modify e mods = Some o /\ o_applied o = filter (resolvable e) mods /\
            o_published o = match o_recompiled o with [] => [] | _ => filter (resolvable e) mods end.
Proof.
  intros H. unfold did_modify. destruct (scan e 0 mods) as [d r] eqn:E.
  assert (d = idxs e 0 mods) as -> by now rewrite <- scan_fst, E.
  pose proof (delete_one e mods [] H) as Hd. cbn [app length] in Hd. rewrite Hd.
  eexists. repeat split; cbn.
Qed.

(** the second unresolved event survives *)
Lemma nth_delete_at_lt {A} (l l' : list A) i j :
  delete_at l i = Some l' -> j < i -> nth_error l' j = nth_error l j.
Proof.
  revert i j l'; induction l as [|x l IH]; intros i j l' H Hj; cbn in *; [discriminate|].
  destruct i; [lia|]. destruct (delete_at l i) eqn:E; [|discriminate]. injection H as <-.
  destruct j; cbn; [reflexivity|]. eapply IH; [exact E|lia].
Qed.

Lemma nth_delete_at_ge {A} (l l' : list A) i j :
  delete_at l i = Some l' -> i <= j -> nth_error l' j = nth_error l (S j).
Proof.
  revert i j l'; induction l as [|x l IH]; intros i j l' H Hj; cbn in *; [discriminate|].
  destruct i; [now injection H as <-|].
  destruct (delete_at l i) eqn:E; [|discriminate]. injection H as <-.
  destruct j; [lia|]. cbn. rewrite (IH _ _ _ E) by lia. reflexivity.
Qed.

Lemma delete_all_keep {A} (l l' : list A) is j :
  delete_all l is = Some l' -> (forall i, In i is -> j < i) -> nth_error l' j = nth_error l j.
Proof.
  revert l; induction is as [|i is IH]; intros l H Hj; cbn in H; [now injection H as <-|].
  destruct (delete_at l i) as [l1|] eqn:E; [|discriminate].
  rewrite (IH l1 H) by (intros; apply Hj; now right).
  eapply nth_delete_at_lt; [exact E|]. apply Hj. now left.
Qed.

Lemma idxs_nth e i mods k : In k (idxs e i mods) ->
  exists m, nth_error mods (k - i) = Some m /\ unresolved e m = true.
Proof.
  revert i; induction mods as [|m mods IH]; intros i; cbn [idxs]; [intros []|].
  intros H. destruct (unresolved e m) eqn:E.
  - destruct H as [<-|H].
    + exists m. now rewrite Nat.sub_diag.
    + pose proof (idxs_ge _ _ _ _ H). apply IH in H as (m' & H1 & H2).
      exists m'. replace (k - i) with (S (k - S i)) by lia. auto.
  - pose proof (idxs_ge _ _ _ _ H). apply IH in H as (m' & H1 & H2).
    exists m'. replace (k - i) with (S (k - S i)) by lia. auto.
Qed.

Lemma idxs_sorted e i mods a r : idxs e i mods = a :: r -> forall k, In k r -> a < k.
Proof.
  revert i; induction mods as [|m mods IH]; intros i; cbn; [discriminate|].
  destruct (unresolved e m).
  - intros [= <- <-] k Hk. apply idxs_ge in Hk. lia.
  - apply IH.
Qed.

Lemma idxs_sorted2 e i mods a b r : idxs e i mods = a :: b :: r ->
  a < b /\ forall k, In k r -> b < k.
Proof.
  revert i; induction mods as [|m mods IH]; intros i; cbn; [discriminate|].
  destruct (unresolved e m).
  - intros [= <- H]. split; [|eapply idxs_sorted; exact H].
    apply (idxs_ge e (S i) mods). rewrite H. now left.
  - apply IH.
Qed.

Lemma did_modify_two_or_more e mods o :
  2 <= unresolvable_count e mods ->
  did_modify e mods = Some o ->
  exists m, In m (o_applied o) /\ resolvable e m = false.
Proof.
  intros H. unfold did_modify. destruct (scan e 0 mods) as [d r] eqn:E.
  assert (Hd : d = idxs e 0 mods) by now rewrite <- scan_fst, E. rewrite <- (idxs_length e 0) in H.
  destruct (idxs e 0 mods) as [|a [|b is]] eqn:Ei; cbn in H; try lia. subst d.
  destruct (delete_all mods (a :: b :: is)) as [l'|] eqn:Ed; [|discriminate].
  intros [= <-]. cbn [o_applied].
  destruct (idxs_sorted2 _ _ _ _ _ _ Ei) as [Hab Hb].
  destruct (idxs_nth e 0 mods b) as (m & Hm & Hu); [rewrite Ei; right; now left|].
  rewrite Nat.sub_0_r in Hm.
  exists m. split; [|rewrite unresolved_resolvable in Hu; now apply negb_true_iff].
  cbn in Ed. destruct (delete_at mods a) as [l1|] eqn:E1; [|discriminate].
  destruct (delete_at l1 b) as [l2|] eqn:E2; [|discriminate].
  apply (nth_error_In l' (b - 1)).
  rewrite (delete_all_keep _ _ _ (b - 1) Ed).
  - rewrite (nth_delete_at_lt _ _ _ _ E2) by lia.
    rewrite (nth_delete_at_ge _ _ _ _ E1) by lia.
    now replace (S (b - 1)) with b by lia.
  - intros i Hi. apply Hb in Hi. lia.
Qed.

Lemma did_modify_exact e mods :
  (exists o, did_modify e mods = Some o /\ o_applied o = filter (resolvable e) mods)
  <-> unresolvable_count e mods <= 1.
Proof.
  split.
  - intros (o & Ho & Ha). destruct (le_lt_dec (unresolvable_count e mods) 1) as [|Hgt]; [assumption|].
    destruct (did_modify_two_or_more e mods o Hgt Ho) as (m & Hm & Hr).
    rewrite Ha in Hm. apply filter_In in Hm. destruct Hm. congruence.
  - intros H. destruct (did_modify_at_most_one e mods H) as (o & ? & ? & _). now exists o.
Qed.

(* ---------- C04 ---------- *)
Definition touches_save_or_disk (u : uri) (ev : event) : Prop :=
  match ev with
  | ESave u' => u' = u
  | EWatched l => In u (map fst l)
  | _ => False
  end.

(** the version a client gives with an event, for document [u] *)
Definition client_version (u : uri) (ev : event) : list Z :=
  match ev with
  | EOpen u' v _ | EChange u' v => if Nat.eqb u' u then [v] else []
  | _ => []
  end.

Definition client_versions (u : uri) (h : session) : list Z :=
  flat_map (fun '(_, ev) => client_version u ev) h.

Lemma single_published e m :
  exists b : bool, 
  (match did_modify e [m] with
   | Some o => map (fun m => (m_uri m, m_version m)) (o_published o)
   | None => [] end)
  = if b then [(m_uri m, m_version m)] else [].
Proof.
  unfold did_modify. cbn [scan]. destruct (skipped m).
  - cbn [delete_all fst snd]. destruct (recompile_deleted e [m] ++ []); cbn; [now exists false|now exists true].
  - destruct (path_after e (m_uri m)).
    + cbn [delete_all]. destruct (recompile_deleted e [m] ++ _); cbn; [now exists false|now exists true].
    + cbn [delete_all delete_at o_published]. exists false.
      now destruct (recompile_deleted e [m] ++ []).
Qed.

Lemma close_publishes_nothing e u : published e (EClose u) = [].
Proof.
  unfold published, did_modify. cbn. destruct (path_after e u); reflexivity.
Qed.

Lemma watched_published e l p :
  In p (published e (EWatched l)) -> In (fst p) (map fst l).
Proof.
  unfold published. destruct (did_modify e (mods_of (EWatched l))) as [o|] eqn:E; [|intros []].
  intros H. apply in_map_iff in H as (m & <- & Hm). cbn.
  assert (Hin : forall A (a : A) is l l', delete_all l is = Some l' -> In a l' -> In a l).
  { intros A a is. induction is as [|i is IH]; intros l0 l' Hd; cbn in Hd; [now injection Hd as <-|].
    destruct (delete_at l0 i) as [l1|] eqn:E1; [|discriminate]. intros Ha. apply (IH _ _ Hd) in Ha.
    clear - E1 Ha. revert i l1 E1 Ha. induction l0 as [|x l0 IH]; intros i l1 E1 Ha; cbn in E1; [discriminate|].
    destruct i; [injection E1 as <-; now right|].
    destruct (delete_at l0 i) eqn:E; [|discriminate]. injection E1 as <-.
    destruct Ha as [->|Ha]; [now left|]. right. eapply IH; eassumption. }
  unfold did_modify in E. destruct (scan e 0 _) as [d r].
  destruct (delete_all _ d) as [l'|] eqn:Ed; [|discriminate]. injection E as <-. cbn in Hm.
  assert (In m l') as Hm' by (destruct (recompile_deleted _ _ ++ r); [destruct Hm|assumption]).
  apply (Hin _ _ _ _ _ Ed) in Hm'. cbn in Hm'. apply in_map_iff in Hm' as ([u a] & <- & Hm').
  cbn. change u with (fst (u, a)). now apply in_map.
Qed.

Lemma published_client e ev u v :
  ~ touches_save_or_disk u ev -> In (u, v) (published e ev) -> In v (client_version u ev).
Proof.
  destruct ev as [u' v' pr|u'|u' v'|l|u']; cbn [touches_save_or_disk client_version]; intros Hn Hin.
  - unfold published in Hin. cbn [mods_of] in Hin.
    destruct (single_published e (mkMod u' AOpen v' pr)) as [b Hb]. rewrite Hb in Hin.
    destruct b; [|destruct Hin]. destruct Hin as [[= -> ->]|[]]. rewrite Nat.eqb_refl. now left.
  - rewrite close_publishes_nothing in Hin. destruct Hin.
  - unfold published in Hin. cbn [mods_of] in Hin.
    destruct (single_published e (mkMod u' AChange v' false)) as [b Hb]. rewrite Hb in Hin.
    destruct b; [|destruct Hin]. destruct Hin as [[= -> ->]|[]]. rewrite Nat.eqb_refl. now left.
  - apply watched_published in Hin. contradiction.
  - unfold published in Hin. cbn [mods_of] in Hin.
    destruct (single_published e (mkMod u' ASave 0 false)) as [b Hb]. rewrite Hb in Hin.
    destruct b; [|destruct Hin]. destruct Hin as [[= -> _]|[]]. congruence.
Qed.

Lemma latest_In p u v : latest p u = Some v -> In (u, v) p.
Proof.
  induction p as [|[u' v'] p IH]; cbn; [discriminate|].
  destruct (latest p u); intros H.
  - right. apply IH. exact H.
  - destruct (Nat.eqb_spec u' u); [|discriminate]. injection H as ->. subst. now left.
Qed.

Lemma published_all_app h1 h2 : published_all (h1 ++ h2) = published_all h1 ++ published_all h2.
Proof. unfold published_all. now rewrite flat_map_app. Qed.

Lemma published_all_client u h v :
  (forall e ev, In (e, ev) h -> ~ touches_save_or_disk u ev) ->
  In (u, v) (published_all h) -> In v (client_versions u h).
Proof.
  intros Hn Hin. unfold published_all in Hin. apply in_flat_map in Hin as ([e ev] & Hh & Hin).
  unfold client_versions. apply in_flat_map. exists (e, ev). split; [assumption|].
  apply (published_client e); [eapply Hn; exact Hh|assumption].
Qed.

(** client versions of [h1] are all <= those of [h2] *)
Lemma version_monotone u h1 h2 a b :
  (forall e ev, In (e, ev) (h1 ++ h2) -> ~ touches_save_or_disk u ev) ->
  (forall x y, In x (client_versions u h1) -> In y (client_versions u h2) -> (x <= y)%Z) ->
  latest (published_all h1) u = Some a ->
  latest (published_all (h1 ++ h2)) u = Some b -> (a <= b)%Z.
Proof.
  intros Hn Hle Ha Hb. rewrite published_all_app, Proofs.latest_app in Hb.
  destruct (latest (published_all h2) u) as [x|] eqn:E.
  - injection Hb as ->. apply Hle.
    + apply published_all_client; [intros; eapply Hn; apply in_or_app; left; eassumption|].
      now apply latest_In.
    + apply published_all_client; [intros; eapply Hn; apply in_or_app; right; eassumption|].
      now apply latest_In.
  - rewrite Ha in Hb. injection Hb as ->. lia.
Qed.

Lemma change_publishes e u v p :
  path_after e u = Some p -> published e (EChange u v) = [(u, v)].
Proof.
  intros H. unfold published, did_modify. cbn. rewrite H. reflexivity.
Qed.

Lemma pubs_ops_of h : pubs (ops_of h) = published_all h.
Proof.
  unfold pubs, ops_of, published_all.
  induction h as [|[e ev] h IH]; cbn; [reflexivity|]. now rewrite IH.
Qed.

(* ---------- C06 ---------- *)
(** the edits of a descending list of changes are strictly descending *)
Definition edits_of (t : text) (cs : list change) : option (list edit) :=
  match to_edits t cs with Some (Some es) => Some es | _ => None end.

Fixpoint desc_edits (bound : nat) (bi : bool) (es : list edit) : Prop :=
  match es with
  | [] => True
  | (s, e, _) :: r => s <= e /\ e <= bound /\ ~ (bi = true /\ s = e /\ e = bound) /\
                      desc_edits s (Nat.eqb s e) r
  end.

Lemma descending_edits t bound bi cs :
  descending t bound bi cs ->
  exists es, to_edits t cs = Some (Some es) /\ desc_edits bound bi es.
Proof.
  revert bound bi; induction cs as [|c cs IH]; intros bound bi; cbn.
  - intros _. now exists [].
  - intros (l1 & c1 & l2 & c2 & s & e & Hr & Hs & He & H1 & H2 & H3 & H4).
    destruct (IH _ _ H4) as (es & Hes & Hd). apply position_poff in Hs. apply position_poff in He. rewrite Hr, Hes, Hs, He.
    exists ((s, e, c_text c) :: es). split; [reflexivity|]. cbn. auto.
Qed.

Lemma insert_last x l :
  (forall y, In y l -> edit_lt y x = true) -> insert_edit x l = l ++ [x].
Proof.
  induction l as [|y l IH]; cbn; [reflexivity|]. intros H.
  rewrite H by now left. f_equal. apply IH. intros. apply H. now right.
Qed.

Lemma desc_edits_bound bound bi es s e n :
  desc_edits bound bi es -> In (s, e, n) es ->
  s <= e /\ e <= bound /\ (bi = true -> s < bound).
Proof.
  revert bound bi; induction es as [|[[s0 e0] n0] es IH]; intros bound bi; cbn; [tauto|].
  intros (H1 & H2 & H3 & H4) [[= -> -> ->]|Hin].
  - split; [assumption|]. split; [assumption|]. intros ->. lia.
  - destruct (IH _ _ H4 Hin) as (Ha & Hb & Hc). split; [assumption|]. split; [lia|].
    intros ->. destruct (Nat.eqb_spec s0 e0) as [->|Hne].
    + specialize (Hc eq_refl). lia.
    + lia.
Qed.

Lemma sort_desc bound bi es : desc_edits bound bi es -> sort_edits es = rev es.
Proof.
  revert bound bi; induction es as [|[[s e] n] es IH]; intros bound bi; cbn; [reflexivity|].
  intros (H1 & H2 & H3 & H4). rewrite (IH _ _ H4). apply insert_last.
  intros [[s' e'] n'] Hin. apply in_rev in Hin.
  destruct (desc_edits_bound _ _ _ _ _ _ H4 Hin) as (Ha & Hb & Hc).
  unfold edit_lt. destruct (Nat.eqb_spec s e) as [->|Hne].
  - specialize (Hc eq_refl). apply orb_true_iff. left. now apply Nat.ltb_lt.
  - destruct (Nat.eq_dec s' s) as [->|Hne'].
    + apply orb_true_iff. right. rewrite Nat.eqb_refl. cbn. apply Nat.ltb_lt. lia.
    + apply orb_true_iff. left. apply Nat.ltb_lt. lia.
Qed.

Lemma valid_snoc size last l s e n :
  valid_edits size last l = true -> s <= e -> e <= size ->
  (forall s' e' n', In (s', e', n') l -> e' <= s) -> last <= s ->
  valid_edits size last (l ++ [(s, e, n)]) = true.
Proof.
  revert last; induction l as [|[[s0 e0] n0] l IH]; intros last; cbn.
  - intros _ H1 H2 _ H3. rewrite !andb_true_iff, !Nat.leb_le. auto.
  - rewrite !andb_true_iff, !Nat.leb_le. intros [[[Ha Hb] Hc] Hd] H1 H2 H3 H4.
    repeat split; auto. apply IH; auto.
    + intros. eapply H3. right. eassumption.
    + eapply H3. now left.
Qed.

Lemma valid_desc (t : text) bound bi es :
  bound <= length t -> desc_edits bound bi es ->
  valid_edits (length t) 0 (rev es) = true.
Proof.
  revert bound bi; induction es as [|[[s e] n] es IH]; intros bound bi Hb; cbn; [reflexivity|].
  intros (H1 & H2 & H3 & H4). apply valid_snoc; try lia.
  - eapply IH; [|exact H4]. lia.
  - intros s' e' n' Hin. apply in_rev in Hin.
    destruct (desc_edits_bound _ _ _ _ _ _ H4 Hin) as (Ha & Hb' & _). lia.
Qed.

(** building with the last edit appended *)
Lemma build_snoc (t : text) last l s e n :
  valid_edits (length t) last l = true ->
  (forall s' e' n', In (s', e', n') l -> e' <= s) -> last <= s -> s <= e -> e <= length t ->
  build t last (l ++ [(s, e, n)]) =
  build (firstn s t ++ n ++ skipn e t) last l.
Proof.
  revert last; induction l as [|[[s0 e0] n0] l IH]; intros last; cbn.
  - intros _ _ H1 H2 H3.
    rewrite skipn_app, firstn_length, Nat.min_l by lia.
    replace (last - s) with 0 by lia. cbn [skipn]. f_equal.
    rewrite skipn_firstn_comm. reflexivity.
  - rewrite !andb_true_iff, !Nat.leb_le. intros [[[Ha Hb] Hc] Hd] H1 H2 H3 H4.
    assert (e0 <= s) as He0 by (eapply H1; now left).
    rewrite IH; auto; [|intros; eapply H1; right; eassumption].
    f_equal.
    rewrite skipn_app, firstn_length, Nat.min_l by lia.
    replace (last - s) with 0 by lia. cbn [skipn].
    rewrite firstn_app, skipn_length, firstn_length, Nat.min_l by lia.
    replace (s0 - last - (s - last)) with 0 by lia. cbn [firstn]. rewrite app_nil_r.
    rewrite skipn_firstn_comm, firstn_firstn. f_equal. lia.
Qed.

Definition ranged (t : text) (c : change) : Prop :=
  exists l1 c1 l2 c2 s e, c_range c = Some ((l1, c1), (l2, c2)) /\ position t l1 c1 s /\ position t l2 c2 e.

Lemma build_desc_seq t0 t bound bi cs es :
  to_edits t0 cs = Some (Some es) -> desc_edits bound bi es -> bound <= length t0 ->
  (forall l c k, position t0 l c k -> k <= bound -> position t l c k) ->
  (forall k, k <= bound -> firstn k t = firstn k t0) -> bound <= length t ->
  (forall c, In c cs -> ranged t0 c) ->
  apply_changes t cs = Some (build t 0 (rev es)).
Proof.
  revert t bound bi es; induction cs as [|c cs IH]; intros t bound bi es He Hd Hb0 Hp Hf Hb Hr; cbn in He.
  - injection He as <-. reflexivity.
  - destruct (c_range c) as [[[l1 c1] [l2 c2]]|] eqn:Er; [|discriminate].
    destruct (to_edits t0 cs) as [[es'|]|] eqn:Ees; try discriminate.
    destruct (Hr c (or_introl eq_refl)) as (l1' & c1' & l2' & c2' & s & e & Er' & P1 & P2).
    rewrite Er in Er'. injection Er' as <- <- <- <-.
    rewrite (position_poff _ _ _ _ P1), (position_poff _ _ _ _ P2) in He.
    injection He as <-. cbn in Hd. destruct Hd as (H1 & H2 & H3 & H4).
    cbn [apply_changes]. unfold apply_change. rewrite Er.
    rewrite (position_poff _ _ _ _ (Hp _ _ _ P1 ltac:(lia))), (position_poff _ _ _ _ (Hp _ _ _ P2 ltac:(lia))).
    assert (Nat.leb s e = true) as -> by (apply Nat.leb_le; lia).
    cbn [rev]. rewrite build_snoc; try lia.
    + apply (IH _ s (Nat.eqb s e) es'); auto; try lia.
      * intros l c0 k Hk Hks. rewrite Hf by lia. apply position_local; auto.
      * intros k Hk. rewrite firstn_app, firstn_firstn, firstn_length.
        rewrite Nat.min_l by lia. rewrite Nat.min_l by lia.
        replace (k - s) with 0 by lia. cbn. rewrite app_nil_r. apply Hf. lia.
      * rewrite app_length, firstn_length. lia.
      * intros. apply Hr. now right.
    + apply (valid_desc t s (Nat.eqb s e)); [lia|assumption].
    + intros s' e' n' Hin. apply in_rev in Hin.
      destruct (desc_edits_bound _ _ _ _ _ _ H4 Hin) as (? & ? & _). lia.
Qed.

Lemma descending_range t bound bi cs c : descending t bound bi cs -> In c cs -> ranged t c.
Proof.
  revert bound bi; induction cs as [|c0 cs IH]; intros bound bi; cbn; [tauto|].
  intros (l1 & c1 & l2 & c2 & s & e & Hr & Hs & He & _ & _ & _ & Hd) [->|Hin]; [now exists l1, c1, l2, c2, s, e|].
  eapply IH; eassumption.
Qed.

Lemma changed_text_descending t cs :
  cs <> [] -> descending t (length t) false cs ->
  exists t', changed_text t cs = ROk t' /\ apply_changes t cs = Some t'.
Proof.
  intros Hne Hd. destruct (descending_edits _ _ _ _ Hd) as (es & He & Hde).
  assert (Hs : apply_bytes t es = ROk (build t 0 (rev es))).
  { unfold apply_bytes. rewrite (sort_desc _ _ _ Hde).
    now rewrite (valid_desc t (length t) false es) by auto. }
  exists (build t 0 (rev es)). split.
  - unfold changed_text. destruct cs as [|c [|c' cs]]; [congruence| |].
    + pose proof (descending_range _ _ _ _ c Hd (or_introl eq_refl)) as (? & ? & ? & ? & ? & ? & Hr & _).
      destruct (c_range c) as [r|] eqn:Er; [|congruence]. now rewrite He.
    + now rewrite He.
  - eapply build_desc_seq; eauto. intros. eapply descending_range; eassumption.
Qed.

Lemma changed_text_single t c t' :
  (c_range c = None -> c_len0 c = true) ->
  (changed_text t [c] = ROk t' <-> apply_change t c = Some t').
Proof.
  intros H0. unfold changed_text, apply_change.
  destruct (c_range c) as [[[l1 c1] [l2 c2]]|] eqn:Er.
  - cbn. rewrite Er. destruct (poff t l1 c1) as [s|] eqn:E1; [|split; discriminate].
    destruct (poff t l2 c2) as [e|] eqn:E2; [|split; discriminate].
    unfold apply_bytes. cbn. rewrite andb_true_r, andb_true_r.
    apply poff_le in E2. apply Nat.leb_le in E2. rewrite E2, andb_true_r.
    destruct (Nat.leb s e); [|split; discriminate].
    rewrite Nat.sub_0_r. split; intros [= <-]; reflexivity.
  - rewrite H0 by reflexivity. split; intros [= <-]; reflexivity.
Qed.

Lemma scan_rec e p mods : forall i, In p (snd (scan e i mods)) <->
  exists m, In m mods /\ skipped m = false /\ path_after e (m_uri m) = Some p /\ recompiles e m = true.
Proof.
  induction mods as [|m mods IH]; intros i; cbn [scan].
  - split; [intros []|intros (m & [] & _)].
  - specialize (IH (S i)). destruct (scan e (S i) mods) as [del rec]. cbn [snd] in IH.
    assert (G : In p rec -> exists m0, In m0 (m :: mods) /\ skipped m0 = false /\ path_after e (m_uri m0) = Some p /\ recompiles e m0 = true).
    { intros H. apply IH in H as (x & X & R). exists x. split; [now right|exact R]. }
    destruct (skipped m) eqn:S; [|destruct (path_after e (m_uri m)) as [q|] eqn:P; [destruct (recompiles e m) eqn:R|]]; cbn [snd];
      (split; [|intros (x & [<- | X] & A & B & C); try congruence; try (right; apply IH; eauto 6; fail); try (apply IH; eauto 6; fail)]); auto.
    + intros [<- | H]; [|auto]. exists m. split; [now left|auto].
    + left. congruence.
Qed.

Lemma did_modify_compiled e mods o p : did_modify e mods = Some o ->
  (In p (o_recompiled o) <-> exists m, In m mods /\ asks e m p).
Proof.
  unfold did_modify. assert (G := scan_rec e p mods 0). destruct (scan e 0 mods) as [del rec]. cbn [snd] in G.
  destruct (delete_all mods del) as [mods'|]; [|discriminate]. intros [= <-]. cbn [o_recompiled]. rewrite in_app_iff, G.
  unfold recompile_deleted. rewrite in_flat_map. split.
  - intros [(m & M & H) | (m & M & K & A & R)]; exists m; (split; [exact M|]).
    + left. destruct (m_action m); cbn in H; try destruct H. destruct (path_before e (m_uri m)) as [q|]; [|destruct H]. destruct H as [-> | []]. auto.
    + right. split; [exact A|]. unfold skipped, recompiles in *. destruct (m_action m); cbn in *; try discriminate; auto 6; right; right; right.
      * split; [right; split; [reflexivity|now destruct (m_proto m)]|]. apply orb_true_iff in R as [R | R]; [left; now apply negb_true_iff|right].
        apply negb_true_iff, Z.eqb_neq in R. exact R.
      * split; [now left|]. apply orb_true_iff in R as [R | R]; [left; now apply negb_true_iff|right]. apply negb_true_iff, Z.eqb_neq in R. exact R.
  - intros (m & M & [[A B] | [A H]]).
    + left. exists m. split; [exact M|]. rewrite A, B. now left.
    + right. exists m. split; [exact M|]. unfold skipped, recompiles. destruct H as [H | [H | [H | [H V]]]]; try (rewrite H; cbn; auto; fail).
      assert (W : (negb (read_fails e (m_uri m)) || negb (Z.eqb (fh_version e (m_uri m)) (m_version m)))%bool = true).
      { apply orb_true_iff. destruct V as [-> | V]; [now left|right]. apply negb_true_iff, Z.eqb_neq. exact V. }
      destruct H as [H | [H PR]]; rewrite H; cbn; [auto|]. rewrite PR. auto.
Qed.
