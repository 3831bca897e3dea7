From Verif Require Import Base.
From Verif.Compile Require Import Model Spec.

(* ---------- list facts ---------- *)
Lemma find_replace l p e' l' : epath e' = p -> replace_first l p e' = Some l' ->
  find_file l' p = Some e' /\ (forall q, q <> p -> find_file l' q = find_file l q) /\
  map epath l' = map epath l /\ find_file l p <> None.
Proof.
  intros He. revert l'; induction l as [|e l IH]; intros l' H; cbn [replace_first] in H; [discriminate|].
  cbn [find_file]. destruct (Nat.eqb_spec (epath e) p) as [E|E].
  - injection H as <-. cbn [find_file map]. rewrite He, Nat.eqb_refl. repeat split; try congruence.
    intros q Hq. destruct (Nat.eqb_spec p q); [congruence|]. destruct (Nat.eqb_spec (epath e) q); congruence.
  - destruct (replace_first l p e') as [r|] eqn:Er; [|discriminate]. injection H as <-.
    destruct (IH r eq_refl) as (H1 & H2 & H3 & H4). cbn [find_file map].
    apply Nat.eqb_neq in E. rewrite E. repeat split; try congruence.
    intros q Hq. destruct (Nat.eqb (epath e) q); auto.
Qed.

Lemma replace_none l p e' : replace_first l p e' = None <-> find_file l p = None.
Proof.
  induction l as [|e l IH]; cbn; [tauto|]. destruct (Nat.eqb (epath e) p); [split; discriminate|].
  destruct (replace_first l p e'); [|tauto]. rewrite <- IH. split; discriminate.
Qed.

Lemma find_app l e q : find_file (l ++ [e]) q =
  match find_file l q with Some x => Some x | None => if Nat.eqb (epath e) q then Some e else None end.
Proof. induction l as [|x l IH]; cbn; [reflexivity|]. destruct (Nat.eqb (epath x) q); auto. Qed.

Lemma find_none l p : find_file l p = None <-> ~ In p (map epath l).
Proof.
  induction l as [|e l IH]; cbn; [tauto|]. destruct (Nat.eqb_spec (epath e) p) as [->|E].
  - split; [discriminate|tauto].
  - rewrite IH. tauto.
Qed.

Lemma find_epath l p e : find_file l p = Some e -> epath e = p /\ In e l.
Proof.
  induction l as [|x l IH]; cbn; [discriminate|]. destruct (Nat.eqb_spec (epath x) p) as [E|E].
  - intros [= ->]. auto.
  - intros H. destruct (IH H). auto.
Qed.

Lemma remove_other l p q : q <> p -> find_file (remove_first l p) q = find_file l q.
Proof.
  intros Hq. induction l as [|e l IH]; cbn; [reflexivity|].
  destruct (Nat.eqb_spec (epath e) p) as [->|E].
  - destruct (Nat.eqb_spec p q); [congruence|reflexivity].
  - cbn. destruct (Nat.eqb (epath e) q); auto.
Qed.

Lemma remove_in l p x : In x (map epath (remove_first l p)) -> In x (map epath l).
Proof.
  induction l as [|e l IH]; cbn; [auto|]. destruct (Nat.eqb (epath e) p); cbn; tauto.
Qed.

Lemma remove_nodup l p : NoDup (map epath l) -> NoDup (map epath (remove_first l p)).
Proof.
  induction l as [|e l IH]; cbn; [auto|]. intros H. inversion H; subst.
  destruct (Nat.eqb (epath e) p); [assumption|]. cbn. constructor; [|auto].
  intros Hin. apply remove_in in Hin. auto.
Qed.

Lemma remove_same l p : NoDup (map epath l) -> find_file (remove_first l p) p = None.
Proof.
  induction l as [|e l IH]; cbn; [auto|]. intros H. inversion H; subst.
  destruct (Nat.eqb_spec (epath e) p) as [<-|E].
  - now apply find_none.
  - cbn. apply Nat.eqb_neq in E. rewrite E. auto.
Qed.

(* ---------- per-path view ---------- *)
Definition view := (option entry * option rid * option rid * option prag)%type.
Definition view_of (s : state) (p : path) : view :=
  (find_file (results s) p, partials s p, unlinkeds s p, pragmas s p).

Definition is_linked (e : option entry) : bool :=
  match e with Some (Linked _ _) => true | _ => false end.

Definition ok_view (v : view) : Prop :=
  let '(f, pa, un, pr) := v in
  (f <> None -> pr <> None) /\ (pa = None \/ un = None) /\
  (pa <> None \/ un <> None -> is_linked f = false).

Definition Inv (s : state) : Prop :=
  NoDup (map epath (results s)) /\ forall p, ok_view (view_of s p).

Definition ph (f : option entry) (p : path) : option entry :=
  match f with Some _ => Some (Placeholder p) | None => None end.

Definition E_file (v : view) (p : path) (r : rid) (g : prag) : view := (Some (Linked p r), None, None, Some g).
Definition E_partial (v : view) (p : path) (r : rid) (g : prag) : view :=
  let '(f, _, _, _) := v in (ph f p, Some r, None, Some g).
Definition E_unlinked (v : view) (p : path) (r : rid) (g : prag) : view :=
  let '(f, _, _, _) := v in (ph f p, None, Some r, Some g).

Lemma put_ph_find l p : find_file (put_placeholder l p) p = ph (find_file l p) p /\
  (forall q, q <> p -> find_file (put_placeholder l p) q = find_file l q) /\
  map epath (put_placeholder l p) = map epath l.
Proof.
  unfold put_placeholder. destruct (replace_first l p (Placeholder p)) as [l'|] eqn:E.
  - apply find_replace in E as (H1 & H2 & H3 & H4); [|reflexivity]. repeat split; auto.
    rewrite H1. destruct (find_file l p); [reflexivity|congruence].
  - apply replace_none in E. rewrite E. repeat split; auto.
Qed.

Definition good (f : state -> item -> state) (E : view -> path -> rid -> prag -> view) : Prop :=
  (forall s i, Inv s -> NoDup (map epath (results (f s i)))) /\
  (forall s q r g p, q <> p -> view_of (f s (q, r, g)) p = view_of s p) /\
  (forall s p r g, Inv s -> view_of (f s (p, r, g)) p = E (view_of s p) p r g) /\
  (forall v p r g, ok_view v -> ok_view (E v p r g)).

Lemma good_inv f E : good f E -> forall s i, Inv s -> Inv (f s i).
Proof.
  intros (G1 & G2 & G3 & G4) s [[q r] g] HI. split; [now apply G1|].
  intros p. destruct (Nat.eq_dec q p) as [->|Hne].
  - rewrite G3 by assumption. apply G4. apply HI.
  - rewrite G2 by assumption. apply HI.
Qed.

Lemma good_file : good add_file E_file.
Proof.
  unfold good. split; [|split; [|split]].
  - intros s [[p r] g] [Hn _]. unfold add_file. destruct (replace_first (results s) p (Linked p r)) as [l|] eqn:E; cbn [results].
    + apply find_replace in E as (_ & _ & H & _); [|reflexivity]. now rewrite H.
    + apply replace_none in E. apply find_none in E. rewrite map_app. cbn.
      apply NoDup_remove with (l' := @nil nat) || idtac.
      clear - Hn E. induction (map epath (results s)) as [|x l IH]; cbn; [repeat constructor; auto|].
      inversion Hn; subst. constructor.
      * intros H. apply in_app_or in H as [H|[H|[]]]; [auto|]. subst. apply E. now left.
      * apply IH; [assumption|]. intros H. apply E. now right.
  - intros s q r g p Hne. unfold add_file, view_of.
    destruct (replace_first (results s) q (Linked q r)) as [l|] eqn:E; cbn [results partials unlinkeds pragmas].
    + apply find_replace in E as (_ & H & _); [|reflexivity]. rewrite H by auto. rewrite !upd_other by auto.
      destruct (pragmas s q); [rewrite upd_other by auto|]; reflexivity.
    + rewrite find_app. cbn. apply Nat.eqb_neq in Hne as Hne'. rewrite Hne'. rewrite !upd_other by auto.
      destruct (find_file (results s) p); reflexivity.
  - intros s p r g [_ HI]. specialize (HI p). unfold add_file, view_of, E_file, ok_view in *.
    destruct (replace_first (results s) p (Linked p r)) as [l|] eqn:E; cbn [results partials unlinkeds pragmas].
    + apply find_replace in E as (H & _ & _ & H4); [|reflexivity]. rewrite H, !upd_same.
      destruct HI as (HI & _). destruct (pragmas s p); [now rewrite upd_same|]. now elim (HI H4).
    + rewrite find_app. apply replace_none in E. rewrite E. cbn. rewrite Nat.eqb_refl, !upd_same. reflexivity.
  - intros [[[f pa] un] pr] p r g (H1 & H2 & H3). cbn. split; [discriminate|]. split; [now left|]. intros [H|H]; congruence.
Qed.

Lemma good_partial : good add_partial E_partial.
Proof.
  unfold good. split; [|split; [|split]].
  - intros s [[p r] g] [Hn _]. unfold add_partial. cbn [results]. now rewrite (proj2 (proj2 (put_ph_find _ _))).
  - intros s q r g p Hne. unfold add_partial, view_of. cbn [results partials unlinkeds pragmas].
    rewrite !upd_other by auto. destruct (put_ph_find (results s) q) as (_ & H & _). now rewrite H by auto.
  - intros s p r g _. unfold add_partial, view_of, E_partial. cbn [results partials unlinkeds pragmas].
    rewrite !upd_same. now rewrite (proj1 (put_ph_find _ _)).
  - intros [[[f pa] un] pr] p r g (H1 & H2 & H3). cbn. split; [discriminate|]. split; [now right|]. intros _. now destruct f.
Qed.

Lemma good_unlinked : good add_unlinked E_unlinked.
Proof.
  unfold good. split; [|split; [|split]].
  - intros s [[p r] g] [Hn _]. unfold add_unlinked. cbn [results]. now rewrite (proj2 (proj2 (put_ph_find _ _))).
  - intros s q r g p Hne. unfold add_unlinked, view_of. cbn [results partials unlinkeds pragmas].
    rewrite !upd_other by auto. destruct (put_ph_find (results s) q) as (_ & H & _). now rewrite H by auto.
  - intros s p r g _. unfold add_unlinked, view_of, E_unlinked. cbn [results partials unlinkeds pragmas].
    rewrite !upd_same. now rewrite (proj1 (put_ph_find _ _)).
  - intros [[[f pa] un] pr] p r g (H1 & H2 & H3). cbn. split; [discriminate|]. split; [now left|]. intros _. now destruct f.
Qed.

Lemma fold_inv f E l : good f E -> forall s, Inv s -> Inv (fold_left f l s).
Proof. intros G. induction l as [|i l IH]; intros s H; cbn; [assumption|]. apply IH. eapply good_inv; eassumption. Qed.

Lemma fold_notin f E l p : good f E -> ~ In p (map ipath l) -> forall s, view_of (fold_left f l s) p = view_of s p.
Proof.
  intros G. induction l as [|[[q r] g] l IH]; intros H s; cbn; [reflexivity|].
  rewrite IH by (intros Hx; apply H; now right). destruct G as (_ & G2 & _). apply G2. intros ->. apply H. now left.
Qed.

Lemma fold_in f E l p r g : good f E -> NoDup (map ipath l) -> In (p, r, g) l -> forall s, Inv s ->
  view_of (fold_left f l s) p = E (view_of s p) p r g.
Proof.
  intros G. induction l as [|[[q r'] g'] l IH]; intros Hnd Hin s HI; cbn in *; [contradiction|].
  inversion Hnd; subst. destruct Hin as [[= -> -> ->]|Hin].
  - rewrite (fold_notin f E) by assumption. destruct G as (_ & _ & G3 & _). now apply G3.
  - rewrite IH; [|assumption|assumption|now apply (good_inv f E)].
    destruct G as (_ & G2 & _). rewrite G2; [reflexivity|]. intros ->.
    apply H1. apply in_map_iff. now exists (p, r, g).
Qed.

Lemma pre_inv l : forall s, Inv s -> Inv (fold_left pre_compile l s).
Proof.
  induction l as [|q l IH]; intros s H; cbn; [assumption|]. apply IH. destruct H as [Hn H]. split; [exact Hn|].
  intros p. specialize (H p). unfold view_of, pre_compile, ok_view in *. cbn.
  destruct (Nat.eq_dec p q) as [->|Hne]; [rewrite !upd_same|rewrite !upd_other by auto; assumption].
  destruct H as (H1 & _). split; [assumption|]. split; [now left|]. intros [|]; congruence.
Qed.

Lemma pre_notin l p : ~ In p l -> forall s, view_of (fold_left pre_compile l s) p = view_of s p.
Proof.
  induction l as [|q l IH]; intros H s; cbn; [reflexivity|]. rewrite IH by (intros Hx; apply H; now right).
  unfold view_of, pre_compile. cbn. rewrite !upd_other; [reflexivity| |]; intros ->; apply H; now left.
Qed.

Lemma pre_find l : forall s, results (fold_left pre_compile l s) = results s /\ pragmas (fold_left pre_compile l s) = pragmas s.
Proof. induction l as [|q l IH]; intros s; cbn; [auto|]. destruct (IH (pre_compile s q)) as [-> ->]. auto. Qed.

Lemma init_inv : Inv init.
Proof. split; [constructor|]. intros p. cbn. split; [congruence|]. split; [now left|]. reflexivity. Qed.

Lemma step_inv s o : Inv s -> Inv (step s o).
Proof.
  intros H. destruct o as [pre [rp|]|p [|]]; cbn [step].
  - eapply fold_inv; [apply good_unlinked|]. eapply fold_inv; [apply good_partial|].
    eapply fold_inv; [apply good_file|]. now apply pre_inv.
  - now apply pre_inv.
  - assumption.
  - destruct H as [Hn H]. split; [now apply remove_nodup|]. intros q. specialize (H q).
    unfold view_of, ok_view in *. cbn. destruct (Nat.eq_dec q p) as [->|Hne].
    + rewrite remove_same by assumption. destruct H as (H1 & H2 & H3). split; [congruence|]. split; [assumption|]. reflexivity.
    + now rewrite remove_other.
Qed.

Lemma run_snoc h o : run (h ++ [o]) = step (run h) o.
Proof. unfold run. apply fold_left_snoc. Qed.

Lemma run_inv h : Inv (run h).
Proof. induction h as [|o h IH] using rev_ind; [apply init_inv|]. rewrite run_snoc. now apply step_inv. Qed.

(* ---------- C07 ---------- *)
Lemma consistent h :
  NoDup (map epath (results (run h))) /\
  (forall p, partials (run h) p = None \/ unlinkeds (run h) p = None) /\
  (forall p, partials (run h) p <> None \/ unlinkeds (run h) p <> None -> forall r, find_result (run h) p <> Found r).
Proof.
  destruct (run_inv h) as [Hn H]. split; [assumption|]. split.
  - intros p. specialize (H p). cbn in H. apply H.
  - intros p Hp r. specialize (H p). unfold view_of, ok_view in H. destruct H as (_ & _ & H). specialize (H Hp).
    unfold find_result. destruct (find_file (results (run h)) p) as [[q r'|q]|]; cbn in H; congruence.
Qed.

(* ---------- C08 ---------- *)
Definition rel (p : path) (st : status) (v : view) : Prop :=
  let '(f, pa, un, _) := v in
  match st with
  | Never => f = None /\ pa = None /\ un = None
  | IsLinked r => f = Some (Linked p r) /\ pa = None /\ un = None
  | IsPartial r => is_linked f = false /\ pa = Some r /\ un = None
  | IsUnlinked r => is_linked f = false /\ pa = None /\ un = Some r
  end.

Lemma nodup_app_l {A} (l l' : list A) : NoDup (l ++ l') -> NoDup l /\ NoDup l' /\ forall x, In x l -> ~ In x l'.
Proof.
  induction l as [|a l IH]; cbn; intros H; [repeat split; [constructor|assumption|tauto]|].
  inversion H; subst. destruct (IH H3) as (H4 & H5 & H6). repeat split.
  - constructor; [|assumption]. intros Hx. apply H2. apply in_or_app. now left.
  - assumption.
  - intros x [->|Hx] Hx'; [apply H2; apply in_or_app; now right|]. eapply H6; eassumption.
Qed.

Lemma says_in rp p st : says rp p st -> In p (map ipath (r_files rp ++ r_partial rp ++ r_unlinked rp)).
Proof.
  intros H. rewrite !map_app, !in_app_iff.
  destruct H as [r g H|r g H|r g H]; [left|right; left|right; right];
    apply in_map_iff; exists (p, r, g); auto.
Qed.

Lemma in_silent rp p : ~ In p (map ipath (r_files rp ++ r_partial rp ++ r_unlinked rp)) <-> silent rp p.
Proof.
  split.
  - intros H st Hs. apply H. eapply says_in; eassumption.
  - intros H Hin. apply in_map_iff in Hin as ([[q r] g] & E & Hin). cbn in E. subst q.
    apply in_app_or in Hin as [Hin|Hin]; [eapply H; eapply says_linked; eassumption|].
    apply in_app_or in Hin as [Hin|Hin]; [eapply H; eapply says_partial; eassumption|eapply H; eapply says_unlinked; eassumption].
Qed.

(** effect of a compilation on one path *)
Lemma compile_view s pre rp p : Inv s -> wf_report rp ->
  let s' := step s (Compile pre (Some rp)) in
  (forall r g, In (p, r, g) (r_files rp) -> view_of s' p = (Some (Linked p r), None, None, Some g)) /\
  (forall r g, In (p, r, g) (r_partial rp) -> view_of s' p = (ph (find_file (results s) p) p, Some r, None, Some g)) /\
  (forall r g, In (p, r, g) (r_unlinked rp) -> view_of s' p = (ph (find_file (results s) p) p, None, Some r, Some g)) /\
  (silent rp p -> view_of s' p = view_of (fold_left pre_compile pre s) p).
Proof.
  intros HI Hwf s'. unfold s'. cbn [step]. clear s'.
  unfold wf_report in Hwf. rewrite !map_app in Hwf.
  apply nodup_app_l in Hwf as (N1 & Hwf & D1). apply nodup_app_l in Hwf as (N2 & N3 & D2).
  set (s1 := fold_left pre_compile pre s).
  assert (HI1 : Inv s1) by now apply pre_inv.
  set (s2 := fold_left add_file (r_files rp) s1).
  assert (HI2 : Inv s2) by (eapply fold_inv; [apply good_file|assumption]).
  set (s3 := fold_left add_partial (r_partial rp) s2).
  assert (HI3 : Inv s3) by (eapply fold_inv; [apply good_partial|assumption]).
  assert (Hf1 : find_file (results s1) p = find_file (results s) p) by (unfold s1; now rewrite (proj1 (pre_find pre s))).
  assert (Inm : forall l r g, In (p, r, g) l -> In p (map ipath l)).
  { intros l r g H. apply in_map_iff. now exists (p, r, g). }
  split; [|split; [|split]].
  - intros r g Hin. pose proof (Inm _ _ _ Hin) as Hm. specialize (D1 p Hm).
    rewrite (fold_notin _ _ _ _ good_unlinked) by (intros Hx; apply D1; apply in_or_app; now right).
    unfold s3. rewrite (fold_notin _ _ _ _ good_partial) by (intros Hx; apply D1; apply in_or_app; now left).
    unfold s2. now rewrite (fold_in _ _ _ _ _ _ good_file N1 Hin).
  - intros r g Hin. pose proof (Inm _ _ _ Hin) as Hm.
    rewrite (fold_notin _ _ _ _ good_unlinked) by (now apply D2).
    unfold s3. rewrite (fold_in _ _ _ _ _ _ good_partial N2 Hin) by assumption.
    unfold s2. rewrite (fold_notin _ _ _ _ good_file) by (intros Hx; apply (D1 p Hx); apply in_or_app; now left).
    unfold view_of, E_partial. now rewrite Hf1.
  - intros r g Hin. pose proof (Inm _ _ _ Hin) as Hm.
    rewrite (fold_in _ _ _ _ _ _ good_unlinked N3 Hin) by assumption.
    unfold s3. rewrite (fold_notin _ _ _ _ good_partial) by (intros Hx; now apply (D2 p Hx)).
    unfold s2. rewrite (fold_notin _ _ _ _ good_file) by (intros Hx; apply (D1 p Hx); apply in_or_app; now right).
    unfold view_of, E_unlinked. now rewrite Hf1.
  - intros Hs. apply in_silent in Hs. rewrite !map_app in Hs.
    rewrite (fold_notin _ _ _ _ good_unlinked) by (intros Hx; apply Hs; apply in_or_app; right; apply in_or_app; now right).
    unfold s3. rewrite (fold_notin _ _ _ _ good_partial) by (intros Hx; apply Hs; apply in_or_app; right; apply in_or_app; now left).
    unfold s2. rewrite (fold_notin _ _ _ _ good_file) by (intros Hx; apply Hs; apply in_or_app; now left).
    reflexivity.
Qed.

Lemma ph_not_linked f p : is_linked (ph f p) = false.
Proof. now destruct f. Qed.

Lemma wb_snoc h o : forall pre_h, well_behaved_from pre_h (h ++ [o]) ->
  well_behaved_from pre_h h /\
  (match o with
   | Compile pre (Some rp) => wf_report rp /\ forall p, In p pre -> exists st, says rp p st
   | Compile pre None => pre = []
   | Invalidate p false => exists st, latest (pre_h ++ h) p st /\ (st = Never \/ exists r, st = IsLinked r)
   | Invalidate p true => True
   end).
Proof.
  induction h as [|x h IH]; intros pre_h H; cbn [app well_behaved_from] in *.
  - rewrite app_nil_r. tauto.
  - destruct H as [H1 H2]. apply IH in H2 as [H2 H3]. rewrite <- app_assoc in H3. auto.
Qed.

Lemma latest_rel h : well_behaved h -> forall p st, latest h p st -> rel p st (view_of (run h) p).
Proof.
  induction h as [|o h IH] using rev_ind; intros Hw p st Hl.
  - inversion Hl; subst; try (match goal with E : ?h ++ [_] = [] |- _ => now destruct h end); cbn; auto.
  - apply wb_snoc in Hw as [Hw Ho]. cbn [app] in Ho. specialize (IH Hw). rewrite run_snoc.
    pose proof (run_inv h) as HI.
    inversion Hl as [q E1 E2 E3|h0 pre rp q st' Hs E|h0 pre rp q st' Hs Hl' E|h0 pre q st' Hl' E|h0 q E|h0 q q' st' Hne Hl' E|h0 q q' st' Hl' E]; subst;
      try (apply app_inj_tail in E as [-> <-]).
    + now destruct h.
    + destruct Ho as [Hwf _]. destruct (compile_view (run h) pre rp p HI Hwf) as (C1 & C2 & C3 & _).
      destruct Hs as [r g Hin|r g Hin|r g Hin].
      * rewrite (C1 r g Hin). cbn. auto.
      * rewrite (C2 r g Hin). cbn. rewrite ph_not_linked. auto.
      * rewrite (C3 r g Hin). cbn. rewrite ph_not_linked. auto.
    + destruct Ho as [Hwf Hrep]. destruct (compile_view (run h) pre rp p HI Hwf) as (_ & _ & _ & C4).
      rewrite (C4 Hs). rewrite pre_notin; [now apply IH|]. intros Hp. destruct (Hrep p Hp) as [st' Hst]. now apply (Hs st').
    + subst pre. cbn. now apply IH.
    + destruct Ho as (st0 & Hl0 & Hst). apply IH in Hl0. unfold rel, view_of in *. cbn.
      rewrite remove_same by apply HI. destruct Hst as [->|[r ->]]; tauto.
    + specialize (IH p st Hl'). unfold view_of in *. cbn. rewrite remove_other by auto. exact IH.
    + now apply IH.
Qed.

Lemma lookups h p st : well_behaved h -> latest h p st ->
  (forall r, find_result (run h) p = Found r <-> st = IsLinked r) /\
  (forall r, find_result_or_partial (run h) p = Found r <-> st = IsLinked r \/ st = IsPartial r) /\
  (forall r, find_parse (run h) p = Found r <-> st = IsLinked r \/ st = IsPartial r \/ st = IsUnlinked r).
Proof.
  intros Hw Hl. apply (latest_rel h Hw) in Hl. unfold rel, view_of in Hl.
  unfold find_parse, find_result_or_partial, find_result.
  destruct st as [|r0|r0|r0]; destruct Hl as (H1 & H2 & H3).
  - rewrite H1, H2, H3. repeat split; try discriminate; intuition discriminate.
  - rewrite H1, H2, H3. repeat split; try (intros [= ->]; auto); intuition congruence.
  - rewrite H2, H3. destruct (find_file (results (run h)) p) as [[q r'|q]|]; cbn in H1; try discriminate;
      repeat split; try discriminate; try (intros [= ->]; auto); intuition congruence.
  - rewrite H2, H3. destruct (find_file (results (run h)) p) as [[q r'|q]|]; cbn in H1; try discriminate;
      repeat split; try discriminate; try (intros [= ->]; auto); intuition congruence.
Qed.

Lemma latest_total h p : exists st, latest h p st.
Proof.
  induction h as [|o h [st IH]] using rev_ind; [exists Never; constructor|].
  destruct o as [pre [rp|]|q [|]].
  - destruct (in_dec Nat.eq_dec p (map ipath (r_files rp ++ r_partial rp ++ r_unlinked rp))) as [Hin|Hn].
    + apply in_map_iff in Hin as ([[q r] g] & E & Hin). cbn in E. subst q.
      apply in_app_or in Hin as [Hin|Hin]; [|apply in_app_or in Hin as [Hin|Hin]].
      * exists (IsLinked r). apply l_say. econstructor; eassumption.
      * exists (IsPartial r). apply l_say. eapply says_partial; eassumption.
      * exists (IsUnlinked r). apply l_say. eapply says_unlinked; eassumption.
    + exists st. apply l_silent; [now apply in_silent|assumption].
  - exists st. now apply l_failed.
  - exists st. now apply l_changed.
  - destruct (Nat.eq_dec q p) as [->|Hne]; [exists Never; apply l_deleted|exists st; now apply l_other].
Qed.

(* ---------- pragmas ---------- *)
Lemma prag_says rp p g : reported_prag rp p g ->
  exists r, In (p, r, g) (r_files rp) \/ In (p, r, g) (r_partial rp) \/ In (p, r, g) (r_unlinked rp).
Proof. auto. Qed.

Lemma pragma_latest h : wf_history h -> forall p v, latest_prag h p v -> pragmas (run h) p = v.
Proof.
  induction h as [|o h IH] using rev_ind; intros Hw p v Hl.
  - inversion Hl; subst; try (match goal with E : ?h ++ [_] = [] |- _ => now destruct h end); reflexivity.
  - assert (Hw' : wf_history h).
    { intros pre rp Hin. apply (Hw pre rp). apply in_or_app. now left. }
    specialize (IH Hw'). rewrite run_snoc. pose proof (run_inv h) as HI.
    inversion Hl as [q E1 E2 E3|h0 pre rp q g Hs E|h0 pre rp q v' Hs Hl' E|h0 pre q v' Hl' E|h0 q q' b v' Hl' E]; subst;
      try (apply app_inj_tail in E as [-> <-]).
    + now destruct h.
    + assert (Hwf : wf_report rp) by (apply (Hw pre rp); apply in_or_app; right; now left).
      destruct (compile_view (run h) pre rp p HI Hwf) as (C1 & C2 & C3 & _).
      destruct Hs as [r [Hin|[Hin|Hin]]].
      * specialize (C1 r g Hin). unfold view_of in C1. now injection C1.
      * specialize (C2 r g Hin). unfold view_of in C2. now injection C2.
      * specialize (C3 r g Hin). unfold view_of in C3. now injection C3.
    + assert (Hwf : wf_report rp) by (apply (Hw pre rp); apply in_or_app; right; now left).
      destruct (compile_view (run h) pre rp p HI Hwf) as (_ & _ & _ & C4).
      assert (Hsil : silent rp p).
      { intros st Hst. destruct Hst as [r g Hin|r g Hin|r g Hin]; apply (Hs g); exists r; auto. }
      specialize (C4 Hsil). unfold view_of in C4. injection C4 as _ _ _ C4. change (pragmas (step (run h) (Compile pre (Some rp))) p = v). cbn [step]. rewrite C4.
      rewrite (proj2 (pre_find pre (run h))). now apply IH.
    + cbn [step]. rewrite (proj2 (pre_find pre (run h))). now apply IH.
    + cbn [step]. destruct b; cbn; now apply IH.
Qed.

Lemma latest_prag_total h p : exists v, latest_prag h p v.
Proof.
  induction h as [|o h [v IH]] using rev_ind; [exists None; constructor|].
  destruct o as [pre [rp|]|q b].
  - destruct (in_dec Nat.eq_dec p (map ipath (r_files rp ++ r_partial rp ++ r_unlinked rp))) as [Hin|Hn].
    + apply in_map_iff in Hin as ([[q r] g] & E & Hin). cbn in E. subst q.
      exists (Some g). apply lp_say. exists r. apply in_app_or in Hin as [Hin|Hin]; [auto|].
      apply in_app_or in Hin as [Hin|Hin]; auto.
    + exists v. apply lp_silent; [|assumption]. intros g [r H]. apply Hn. apply in_map_iff. exists (p, r, g).
      split; [reflexivity|]. rewrite !in_app_iff. tauto.
  - exists v. now apply lp_failed.
  - exists v. now apply lp_inval.
Qed.

(* ---------- C09 ---------- *)
Lemma delete_frame h p :
  find_result (step (run h) (Invalidate p false)) p = NotFound /\
  forall q, q <> p ->
    find_result (step (run h) (Invalidate p false)) q = find_result (run h) q /\
    find_result_or_partial (step (run h) (Invalidate p false)) q = find_result_or_partial (run h) q /\
    find_parse (step (run h) (Invalidate p false)) q = find_parse (run h) q.
Proof.
  destruct (run_inv h) as [Hn _]. cbn [step]. split.
  - unfold find_result. cbn. now rewrite remove_same.
  - intros q Hq. unfold find_parse, find_result_or_partial, find_result. cbn. rewrite remove_other by assumption. auto.
Qed.

(* ---------- search ---------- *)
Lemma searched_linked h p r : find_result (run h) p = Found r -> In r (searched (run h)).
Proof.
  unfold find_result, searched. intros H. destruct (find_file (results (run h)) p) as [[q r'|q]|] eqn:E; try discriminate.
  injection H as ->. apply find_epath in E as [E Hin]. apply in_flat_map. eexists. split; [exact Hin|]. now left.
Qed.

Lemma searched_sound h r : In r (searched (run h)) -> exists p, find_result_or_partial (run h) p = Found r.
Proof.
  destruct (run_inv h) as [Hn H]. unfold searched. intros Hr. apply in_flat_map in Hr as (e & He & Hr).
  assert (Hf : find_file (results (run h)) (epath e) = Some e).
  { clear - Hn He. induction (results (run h)) as [|x l IH]; [contradiction|]. cbn in *. inversion Hn; subst.
    destruct He as [->|He]; [now rewrite Nat.eqb_refl|].
    destruct (Nat.eqb_spec (epath x) (epath e)) as [E|E]; [|now apply IH].
    elim H1. rewrite E. now apply in_map. }
  destruct e as [q r'|q]; cbn in Hf.
  - destruct Hr as [<-|[]]. exists q. specialize (H q). unfold view_of, ok_view in H. destruct H as (_ & _ & H).
    unfold find_result_or_partial. destruct (partials (run h) q) eqn:Ep.
    + rewrite Hf in H. cbn in H. discriminate H. left. discriminate.
    + unfold find_result. now rewrite Hf.
  - destruct (partials (run h) q) eqn:Ep; [|contradiction]. destruct Hr as [<-|[]]. exists q.
    unfold find_result_or_partial. now rewrite Ep.
Qed.
