From Coq Require Import Ascii String.
From Verif Require Import Base.
From Verif.Overwrite Require Import Model Spec.
Open Scope list_scope.

Lemma name_eqb_refl n : name_eqb n n = true.
Proof. unfold name_eqb. now destruct (list_eq_dec ascii_dec n n). Qed.
Lemma name_eqb_neq a b : a <> b -> name_eqb a b = false.
Proof. unfold name_eqb. intros. now destruct (list_eq_dec ascii_dec a b). Qed.
Lemma set_same s n c : set s n c n = c.
Proof. unfold set. now rewrite name_eqb_refl. Qed.
Lemma set_other s n c n' : n' <> n -> set s n c n' = s n'.
Proof. intros. unfold set. now rewrite name_eqb_neq. Qed.

Lemma pick_spec s f rs b : pick s f rs = Some b -> s b = None /\ b <> f.
Proof.
  induction rs as [|r rs IH]; cbn; [discriminate|].
  destruct (s (f ++ "."%char :: r)) eqn:E; [exact IH|].
  intros [= <-]. split; [assumption|]. intros H.
  apply (f_equal (@length _)) in H. rewrite app_length in H. cbn in H. lia.
Qed.

Lemma overlay_full c d : length c <= length d -> overlay c d = d.
Proof. intros. unfold overlay. rewrite skipn_all2 by assumption. now rewrite app_nil_r. Qed.

Lemma last_map_seq {A} (g : nat -> A) k d : last (map g (seq 1 k)) d = if Nat.eqb k 0 then d else g k.
Proof.
  destruct k; [reflexivity|]. rewrite seq_S, map_app. cbn [map]. rewrite last_last. reflexivity.
Qed.

Lemma final_app s t1 t2 : final s (t1 ++ t2) = final (final s t1) t2.
Proof.
  unfold final. destruct t2 as [|x t2] using rev_ind; [now rewrite app_nil_r|].
  rewrite app_assoc, !last_last. reflexivity.
Qed.

Lemma final_in s t : t <> [] -> In (final s t) t.
Proof.
  unfold final. destruct t as [|x t] using rev_ind; [congruence|].
  rewrite last_last. intros _. apply in_or_app. right. now left.
Qed.

Lemma final_write s f c data k :
  s f = Some c ->
  k <= length data ->
  forall n, final s (write_states s f c data k) n =
            set s f (Some (overlay c (firstn k data))) n.
Proof.
  intros Hc Hk n. unfold final, write_states. rewrite last_map_seq.
  destruct (Nat.eqb_spec k 0) as [->|Hne]; [|reflexivity].
  cbn. unfold set, overlay. cbn. destruct (list_eq_dec ascii_dec n f) as [->|Hn].
  - now rewrite name_eqb_refl.
  - now rewrite name_eqb_neq.
Qed.

(** [ok s0 f b orig formatted s]: shape of every state after the backup is complete *)
Lemma xfer_le n err data : xfer n err data <= length data.
Proof. unfold xfer. destruct err; lia. Qed.

Section Run.
Variables (o : io) (s0 : fs) (f : name) (orig new : bytes).
Hypothesis Hf : s0 f = Some orig.

Definition good (b : name) (s : fs) : Prop :=
  b <> f /\ s0 b = None /\
  (forall n, n <> f -> n <> b -> s n = s0 n) /\
  (s f = Some orig \/ s f = Some new \/ s b = Some orig).

Definition full (b : name) (s : fs) : Prop :=
  b <> f /\ s0 b = None /\
  (forall n, n <> f -> n <> b -> s n = s0 n) /\ s b = Some orig /\ s f <> None.

Lemma full_good b s : full b s -> good b s.
Proof. intros (H1 & H2 & H3 & H4 & _). repeat split; auto. Qed.

Lemma full_set b s c : full b s -> full b (set s f (Some c)).
Proof.
  intros (H1 & H2 & H3 & H4 & _). repeat split; auto.
  - intros n Hn Hb. rewrite set_other by assumption. auto.
  - rewrite set_other by assumption. assumption.
  - now rewrite set_same.
Qed.

Lemma full_write b s c data k : full b s -> Forall (full b) (write_states s f c data k).
Proof.
  intros H. apply Forall_forall. intros x Hx. unfold write_states in Hx.
  apply in_map_iff in Hx as (i & <- & _). now apply full_set.
Qed.

Lemma full_final b s t : full b s -> Forall (full b) t -> full b (final s t).
Proof.
  intros H Ht. destruct t as [|x t]; [assumption|].
  eapply Forall_forall; [exact Ht|]. apply final_in. discriminate.
Qed.

Lemma good_remove b s : full b s -> (s f = Some orig \/ s f = Some new) ->
  Forall (good b) (remove o s b).
Proof.
  intros (H1 & H2 & H3 & H4 & _) Hs. unfold remove. destruct (remove_err o); constructor; [|constructor].
  repeat split; auto.
  - intros n Hn Hb. rewrite set_other by assumption. auto.
  - rewrite !set_other by auto. tauto.
Qed.

Lemma Forall_full_good b t : Forall (full b) t -> Forall (good b) t.
Proof. intros. eapply Forall_impl; [|eassumption]. apply full_good. Qed.

Lemma backup_states b e t :
  backup_file o s0 f orig = (t, Some (b, e)) ->
  Forall (good b) t /\ (e = false -> full b (final s0 t)) /\
  (forall n, n <> b -> final s0 t n = s0 n) /\
  (final s0 t) f = Some orig.
Proof.
  unfold backup_file. destruct (pick s0 f (randoms o)) as [b'|] eqn:Ep; [|discriminate].
  apply pick_spec in Ep as [Hb Hne].
  destruct (bopen_err o).
  - intros [= <- <- <-]. split; [apply Forall_nil|]. split; [discriminate|].
    split; [reflexivity|assumption].
  - set (k := xfer (bwrite_n o) (bwrite_err o) orig).
    intros [= <- <- <-].
    assert (Hk : k <= length orig) by apply xfer_le.
    assert (Hfin : forall n, final s0 (set s0 b' (Some []) :: write_states (set s0 b' (Some [])) b' [] orig k) n
                    = set s0 b' (Some (firstn k orig)) n).
    { intros n. change (set s0 b' (Some []) :: ?r) with ([set s0 b' (Some [])] ++ r).
      rewrite final_app. change (final s0 [set s0 b' (Some [])]) with (set s0 b' (Some [])).
      rewrite final_write; [|apply set_same|assumption].
      unfold set. destruct (name_eqb n b'); [|reflexivity].
      f_equal. unfold overlay. rewrite skipn_nil. now rewrite app_nil_r. }
    assert (Hst : forall x, In x (set s0 b' (Some []) :: write_states (set s0 b' (Some [])) b' [] orig k) ->
              exists c, forall n, x n = set s0 b' (Some c) n).
    { intros x [<-|Hx]; [now exists []|]. unfold write_states in Hx.
      apply in_map_iff in Hx as (i & <- & _). eexists. intros n. unfold set.
      destruct (name_eqb n b'); reflexivity. }
    assert (Hfne : f <> b') by congruence.
    split; [|split; [intros H; repeat split|split]].
    + apply Forall_forall. intros x Hx. destruct (Hst x Hx) as [c Hc].
      repeat split; auto.
      * intros n Hn Hnb. now rewrite Hc, set_other.
      * left. rewrite Hc, set_other; auto.
    + assumption.
    + assumption.
    + intros n Hn Hnb. rewrite Hfin, set_other; auto.
    + rewrite Hfin, set_same. subst k. unfold xfer.
      apply orb_false_iff in H as [-> _]. now rewrite firstn_all.
    + rewrite Hfin, set_other by assumption. congruence.
    + intros n Hn. now rewrite Hfin, set_other.
    + now rewrite Hfin, set_other.
Qed.

Lemma content_some s c : s f = Some c -> content s f = c.
Proof. unfold content. intros ->. reflexivity. Qed.

Definition post (b : name) (s : fs) (r : res) : Prop :=
  match r with
  | ROk => s f = Some new /\ (remove_err o = false -> s b = None)
  | RErr => s f = Some orig \/ s b = Some orig
  | RDiverge => forall n, s n = s0 n
  end.

Lemma remove_final b s : b <> f ->
  final s (remove o s b) f = s f /\
  (remove_err o = false -> final s (remove o s b) b = None).
Proof.
  intros H. unfold remove. destruct (remove_err o); cbn.
  - split; [reflexivity|discriminate].
  - rewrite set_same, set_other by auto. auto.
Qed.

Lemma full_eq b s : full b s -> exists c, s f = Some c.
Proof. intros (_ & _ & _ & _ & H). destruct (s f); [eauto|congruence]. Qed.

(** The main lemma: every state is good and the postcondition holds. *)
Lemma run_spec t r :
  overwrite_file o s0 f orig new (length orig) = (t, r) ->
  exists b, b <> f /\ s0 b = None /\ Forall (good b) t /\ post b (final s0 t) r \/ t = [] /\ r <> ROk.
Proof.
  unfold overwrite_file.
  destruct (backup_file o s0 f orig) as [t1 [[b e]|]] eqn:Eb.
  2:{ intros [= <- <-]. exists f. right. split; [|discriminate].
      unfold backup_file in Eb. destruct (pick _ _ _); [|congruence].
      destruct (bopen_err o); discriminate. }
  pose proof (backup_states _ _ _ Eb) as (Hg1 & Hfull & Hoth & Hf1).
  destruct e.
  { intros [= <- <-].
    assert (Hbf : b <> f /\ s0 b = None).
    { unfold backup_file in Eb. destruct (pick s0 f (randoms o)) as [b'|] eqn:Ep; [|discriminate].
      apply pick_spec in Ep as [? ?]. destruct (bopen_err o); injection Eb; intros; subst; auto. }
    exists b. left. destruct Hbf. repeat split; auto. left. assumption. }
  specialize (Hfull eq_refl). set (s1 := final s0 t1) in *.
  pose proof Hfull as (Hbf & Hb0 & _).
  destruct (open_err o).
  { intros [= <- <-]. exists b. left. repeat split; auto.
    - apply Forall_app. split; [assumption|]. apply good_remove; auto.
    - rewrite final_app. fold s1. cbn. left.
      destruct (remove_final b s1 Hbf) as [-> _]. assumption. }
  set (n := xfer (write_n o) (write_err o) new) in *.
  assert (Hn : n <= length new) by apply xfer_le.
  rewrite (content_some s1 orig Hf1).
  set (t2 := write_states s1 f orig new n) in *.
  assert (Ht2 : Forall (full b) t2) by now apply full_write.
  set (s2 := final s1 t2) in *.
  assert (Hs2 : full b s2) by now apply full_final.
  assert (Hs2f : s2 f = Some (overlay orig (firstn n new))).
  { unfold s2, t2. rewrite final_write by assumption. apply set_same. }
  rewrite (content_some s2 _ Hs2f).
  set (dotrunc := (negb (write_err o) && Nat.ltb n (length orig))%bool) in *.
  set (t3 := if (dotrunc && negb (trunc_err o))%bool then _ else _) in *.
  assert (Ht3 : Forall (full b) t3).
  { unfold t3. destruct (dotrunc && negb (trunc_err o))%bool; constructor; [|constructor].
    now apply full_set. }
  set (s3 := final s2 t3) in *.
  assert (Hs3 : full b s3) by now apply full_final.
  assert (Hgt : Forall (good b) (t1 ++ t2 ++ t3)).
  { repeat (apply Forall_app; split); auto using Forall_full_good. }
  assert (Hft : final s0 (t1 ++ t2 ++ t3) = s3) by (rewrite !final_app; reflexivity).
  (* contents of f in s3 *)
  assert (Hs3n : write_err o = false -> (dotrunc && trunc_err o)%bool = false -> s3 f = Some new).
  { intros Hw Hd.
    assert (Hnn : n = length new) by (unfold n, xfer; now rewrite Hw).
    unfold s3, t3. destruct dotrunc eqn:Ed; cbn [andb] in *.
    - rewrite Hd. cbn [negb]. unfold final. cbn [last]. rewrite set_same. f_equal.
      unfold overlay. rewrite Hnn, firstn_all. rewrite firstn_app, Nat.sub_diag. cbn [firstn].
      rewrite app_nil_r. apply firstn_all.
    - cbn [final last]. unfold final. cbn [last]. rewrite Hs2f. f_equal.
      rewrite Hnn, firstn_all. apply overlay_full.
      unfold dotrunc in Ed. rewrite Hw in Ed. cbn in Ed. apply Nat.ltb_ge in Ed. lia. }
  assert (Hs3e : (write_err o || (dotrunc && trunc_err o))%bool = true ->
                 s3 f = Some (overlay orig (firstn n new))).
  { intros He. unfold s3, t3. destruct (dotrunc && negb (trunc_err o))%bool eqn:Ed; [|exact Hs2f].
    apply andb_true_iff in Ed as [Ed1 Ed2]. apply negb_true_iff in Ed2.
    rewrite Ed2, andb_false_r, orb_false_r in He. unfold dotrunc in Ed1. now rewrite He in Ed1. }
  destruct (write_err o || (dotrunc && trunc_err o))%bool eqn:Ee.
  - specialize (Hs3e eq_refl). destruct (Nat.eqb_spec n 0) as [Hn0|Hn0].
    + intros [= <- <-]. exists b. left.
      assert (Ho : s3 f = Some orig) by now rewrite Hs3e, Hn0.
      repeat split; auto.
      * apply Forall_app. split; [assumption|]. apply good_remove; auto.
      * rewrite final_app, Hft. left.
        destruct (remove_final b s3 Hbf) as [-> _]. assumption.
    + rewrite (content_some s3 _ Hs3e).
      set (no := xfer (rwrite_n o) (rwrite_err o) orig) in *.
      assert (Hno : no <= length orig) by apply xfer_le.
      set (c3 := overlay orig (firstn n new)) in *.
      set (t4 := write_states s3 f c3 orig no) in *.
      assert (Ht4 : Forall (full b) t4) by now apply full_write.
      set (s4 := final s3 t4) in *.
      assert (Hs4 : full b s4) by now apply full_final.
      assert (Hgt4 : Forall (good b) ((t1 ++ t2 ++ t3) ++ t4)).
      { apply Forall_app. split; auto using Forall_full_good. }
      assert (Hft4 : final s0 ((t1 ++ t2 ++ t3) ++ t4) = s4) by (rewrite final_app, Hft; reflexivity).
      destruct (rwrite_err o) eqn:Erw.
      { intros [= <- <-]. exists b. left. repeat split; auto. rewrite Hft4. right. apply Hs4. }
      destruct (Nat.ltb no n && rtrunc_err o)%bool.
      { intros [= <- <-]. exists b. left. repeat split; auto. rewrite Hft4. right. apply Hs4. }
      set (t5 := if Nat.ltb no n then _ else _) in *.
      assert (Ht5 : Forall (full b) t5).
      { unfold t5. destruct (Nat.ltb no n); constructor; [|constructor]. now apply full_set. }
      set (s5 := final s4 t5) in *.
      assert (Hs5 : full b s5) by now apply full_final.
      assert (Hgt5 : Forall (good b) ((t1 ++ t2 ++ t3) ++ t4 ++ t5)).
      { rewrite app_assoc. apply Forall_app. split; auto using Forall_full_good. }
      assert (Hft5 : final s0 ((t1 ++ t2 ++ t3) ++ t4 ++ t5) = s5).
      { rewrite app_assoc, final_app, Hft4. reflexivity. }
      destruct (rclose_err o).
      { intros [= <- <-]. exists b. left. repeat split; auto. rewrite Hft5. right. apply Hs5. }
      intros [= <- <-].
      assert (Hnoe : no = length orig) by reflexivity.
      assert (Hs4f : s4 f = Some (overlay c3 orig)).
      { unfold s4, t4. rewrite final_write by assumption. rewrite set_same.
        now rewrite Hnoe, firstn_all. }
      assert (Hs5f : s5 f = Some orig).
      { unfold s5, t5. destruct (Nat.ltb_spec no n) as [Hlt|Hge].
        - unfold final. cbn [last]. rewrite set_same. f_equal.
          rewrite (content_some s4 _ Hs4f). unfold overlay.
          rewrite Hnoe, firstn_app, Nat.sub_diag. cbn [firstn]. rewrite app_nil_r. apply firstn_all.
        - unfold final. cbn [last]. rewrite Hs4f. f_equal. apply overlay_full.
          unfold c3, overlay. rewrite app_length, skipn_length, firstn_length. lia. }
      exists b. left. repeat split; auto.
      * replace ((t1 ++ t2 ++ t3) ++ t4 ++ t5 ++ remove o s5 b)
          with (((t1 ++ t2 ++ t3) ++ t4 ++ t5) ++ remove o s5 b) by now rewrite <- !app_assoc.
        apply Forall_app. split; [assumption|]. apply good_remove; auto.
      * replace ((t1 ++ t2 ++ t3) ++ t4 ++ t5 ++ remove o s5 b)
          with (((t1 ++ t2 ++ t3) ++ t4 ++ t5) ++ remove o s5 b) by now rewrite <- !app_assoc.
        rewrite final_app, Hft5. left.
        destruct (remove_final b s5 Hbf) as [-> _]. assumption.
  - apply orb_false_iff in Ee as [Ew Ed]. specialize (Hs3n Ew Ed).
    destruct (close_err o).
    + intros [= <- <-]. exists b. left. repeat split; auto. rewrite Hft. right. apply Hs3.
    + intros [= <- <-]. exists b. left. repeat split; auto.
      * apply Forall_app. split; [assumption|]. apply good_remove; auto.
      * rewrite final_app, Hft. destruct (remove_final b s3 Hbf) as [-> Hr].
        assumption.
      * rewrite final_app, Hft. destruct (remove_final b s3 Hbf) as [_ Hr]. exact Hr.
Qed.

End Run.

Lemma crash_safe o s0 f orig new s :
  s0 f = Some orig ->
  In s (s0 :: fst (overwrite_file o s0 f orig new (length orig))) ->
  recoverable s0 s f orig new /\ others_untouched s0 s f /\ one_new_file s0 s f.
Proof.
  intros Hf Hin. destruct (overwrite_file o s0 f orig new (length orig)) as [t r] eqn:E. cbn in Hin.
  assert (Hs0 : recoverable s0 s0 f orig new /\ others_untouched s0 s0 f /\ one_new_file s0 s0 f).
  { split; [now left|]. split; [intros n c _ H; exact H|]. intros n1 n2 _ _ H1 _ H2. congruence. }
  destruct Hin as [<-|Hin]; [exact Hs0|].
  destruct (run_spec o s0 f orig new Hf t r E) as (b & [(Hbf & Hb0 & Hg & _)|[-> _]]); [|destruct Hin].
  eapply Forall_forall in Hg; [|exact Hin]. destruct Hg as (_ & _ & Hoth & Hc).
  split; [|split].
  - destruct Hc as [Hc|[Hc|Hc]]; [now left|right; now left|right; right].
    exists b. auto.
  - intros n c Hn Hnc. destruct (list_eq_dec ascii_dec n b) as [->|Hnb]; [congruence|].
    now rewrite Hoth.
  - assert (Hone : forall n, n <> f -> s0 n = None -> s n <> None -> n = b).
    { intros n Hn H0 H1. destruct (list_eq_dec ascii_dec n b) as [|Hnb]; [assumption|].
      rewrite Hoth in H1 by assumption. congruence. }
    intros n1 n2 H1 H2 H3 H4 H5 H6. rewrite (Hone n1), (Hone n2); auto.
Qed.

Lemma result_ok o s0 f orig new t :
  s0 f = Some orig ->
  overwrite_file o s0 f orig new (length orig) = (t, ROk) ->
  final s0 t f = Some new /\
  (remove_err o = false -> no_new_file s0 (final s0 t) f).
Proof.
  intros Hf E. destruct (run_spec o s0 f orig new Hf t ROk E) as (b & [(Hbf & Hb0 & Hg & Hp)|[-> H]]).
  - destruct Hp as [Hp1 Hp2]. split; [assumption|]. intros Hr n Hn H0.
    destruct (list_eq_dec ascii_dec n b) as [->|Hnb]; [auto|].
    destruct t as [|x t]; [assumption|].
    assert (Hi : In (final s0 (x :: t)) (x :: t)) by (apply final_in; discriminate).
    eapply Forall_forall in Hg; [|exact Hi]. destruct Hg as (_ & _ & Hoth & _).
    rewrite Hoth; auto.
  - congruence.
Qed.

Lemma result_err o s0 f orig new t :
  s0 f = Some orig ->
  overwrite_file o s0 f orig new (length orig) = (t, RErr) ->
  final s0 t f = Some orig \/ backed_up s0 (final s0 t) f orig.
Proof.
  intros Hf E. destruct (run_spec o s0 f orig new Hf t RErr E) as (b & [(Hbf & Hb0 & Hg & Hp)|[-> H]]).
  - destruct Hp as [Hp|Hp]; [now left|]. right. exists b. auto.
  - now left.
Qed.
