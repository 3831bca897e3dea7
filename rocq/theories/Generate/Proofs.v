From Coq Require Import Ascii String.
From Verif Require Import Base Strs.
From Verif.Generate Require Import Model Spec.
Open Scope list_scope.

(* ---------- paths ---------- *)
Definition normal (c : bytes) : Prop := c <> [] /\ c <> dot1 /\ c <> dot2 /\ ~ In slash c.

Lemma clean_comps_normal cs : forall acc,
  (forall c, In c cs -> ~ In slash c) -> (forall c, In c acc -> normal c) ->
  forall c, In c (clean_comps true acc cs) -> normal c.
Proof.
  induction cs as [|x cs IH]; intros acc Hcs Hacc c Hc; cbn [clean_comps] in Hc.
  - apply in_rev in Hc. auto.
  - assert (Hcs' : forall c, In c cs -> ~ In slash c) by (intros; apply Hcs; now right).
    destruct (beq x []) eqn:E1; cbn [orb] in Hc; [now apply (IH acc)|].
    destruct (beq x dot1) eqn:E2; cbn [orb] in Hc; [now apply (IH acc)|].
    destruct (beq x dot2) eqn:E3.
    + destruct acc as [|a acc]; [now apply (IH [])|].
      destruct (beq a dot2) eqn:E4.
      * apply beq_eq in E4. subst a. destruct (Hacc dot2 (or_introl eq_refl)) as (_ & _ & H & _). congruence.
      * eapply IH; [exact Hcs'| |exact Hc]. intros; apply Hacc; now right.
    + eapply IH; [exact Hcs'| |exact Hc]. intros c' [<-|H]; [|auto].
      apply beq_neq in E1, E2, E3. repeat split; auto. apply Hcs. now left.
Qed.

Lemma clean_comps_id cs : forall acc, (forall c, In c cs -> normal c) ->
  clean_comps true acc cs = rev acc ++ cs.
Proof.
  induction cs as [|x cs IH]; intros acc H; cbn [clean_comps]; [now rewrite app_nil_r|].
  destruct (H x (or_introl eq_refl)) as (H1 & H2 & H3 & _).
  apply beq_neq in H1, H2, H3. rewrite H1, H2, H3. cbn [orb].
  rewrite IH by (intros; apply H; now right). cbn. now rewrite <- app_assoc.
Qed.

Lemma is_rooted_cons r : is_rooted (slash :: r) = true.
Proof. unfold is_rooted. cbn. now rewrite has_prefix_nil. Qed.

Lemma cut_rooted r : exists d, fst (cut_last_slash (slash :: r)) = slash :: d.
Proof.
  cbn [cut_last_slash]. destruct (cut_last_slash r) as [[|x d] f]; cbn; eauto.
Qed.

(** the directory of an absolute path *)
Lemma path_dir_rooted r : exists cs, path_dir (slash :: r) = slash :: join_with slash cs /\
  forall c, In c cs -> normal c.
Proof.
  unfold path_dir. destruct (cut_rooted r) as [d ->]. unfold path_clean. rewrite is_rooted_cons.
  eexists. split; [reflexivity|]. apply clean_comps_normal; [|intros ? []].
  intros c Hc. eapply split_on_sep_free. exact Hc.
Qed.

Lemma join_snoc c ws w : ws <> [] -> join_with c (ws ++ [w]) = join_with c ws ++ c :: w.
Proof.
  induction ws as [|a ws IH]; [congruence|]. intros _. destruct ws as [|b ws]; [reflexivity|].
  cbn [app]. change (join_with c (a :: b :: (ws ++ [w]))) with (a ++ c :: join_with c ((b :: ws) ++ [w])).
  rewrite IH by discriminate. change (join_with c (a :: b :: ws)) with (a ++ c :: join_with c (b :: ws)).
  now rewrite <- app_assoc.
Qed.

Lemma path_join_normal cs name : (forall c, In c cs -> normal c) -> normal name ->
  path_join (slash :: join_with slash cs) name =
  (if beq (slash :: join_with slash cs) [slash] then [] else slash :: join_with slash cs) ++ slash :: name.
Proof.
  intros Hcs Hn. assert (Hne : name <> []) by apply Hn.
  unfold path_join. destruct name as [|x name]; [congruence|]. set (w := x :: name) in *.
  unfold path_clean. cbn [app]. rewrite is_rooted_cons. cbn [split_on]. rewrite Ascii.eqb_refl.
  cbn [clean_comps]. rewrite beq_refl. cbn [orb].
  destruct cs as [|c cs].
  - cbn [join_with app]. cbn [split_on]. rewrite Ascii.eqb_refl. cbn [clean_comps]. rewrite beq_refl. cbn [orb].
    rewrite split_on_no_sep by apply Hn. rewrite clean_comps_id by (intros c [<-|[]]; assumption).
    rewrite beq_refl. reflexivity.
  - assert (join_with slash (c :: cs) ++ slash :: w = join_with slash ((c :: cs) ++ [w])) as ->
      by (symmetry; apply join_snoc; discriminate).
    assert (Hall : forall v, In v ((c :: cs) ++ [w]) -> normal v).
    { intros v Hv. apply in_app_or in Hv as [Hv|[<-|[]]]; auto. }
    rewrite split_join by (try discriminate; intros v Hv; now apply Hall).
    rewrite clean_comps_id by assumption.
    assert (beq (slash :: join_with slash (c :: cs)) [slash] = false) as ->.
    { apply beq_neq. intros E. injection E as E.
      destruct (Hcs c (or_introl eq_refl)) as (Hc & _). destruct c as [|y c]; [congruence|].
      destruct cs; discriminate. }
    change (rev [] ++ (c :: cs) ++ [w]) with ((c :: cs) ++ [w]).
    pose proof (join_snoc slash (c :: cs) w ltac:(discriminate)) as J. cbn [app] in *. f_equal. exact J.
Qed.

(** joining with the special names gives the directory itself or its parent *)
Lemma path_join_slash cs : (forall c, In c cs -> normal c) ->
  path_join (slash :: join_with slash cs) [slash] = slash :: join_with slash cs /\
  path_join (slash :: join_with slash cs) dot1 = slash :: join_with slash cs.
Proof.
  intros Hcs. unfold path_join, dot1. cbn [b_ list_ascii_of_string]. unfold path_clean. cbn [app].
  rewrite !is_rooted_cons. cbn [split_on]. rewrite !Ascii.eqb_refl. cbn [clean_comps]. rewrite !beq_refl. cbn [orb].
  destruct cs as [|c cs].
  - cbn [join_with app split_on]. split; reflexivity.
  - assert (Hs : forall v, In v ((c :: cs)) -> ~ In slash v) by (intros v Hv; now apply Hcs).
    assert (G : forall w, ~ In slash w -> split_on slash (join_with slash (c :: cs) ++ slash :: w) = (c :: cs) ++ [w]).
    { intros w Hw. rewrite <- join_snoc by discriminate. apply split_join; [discriminate|].
      intros v Hv. apply in_app_or in Hv as [Hv|[<-|[]]]; auto. }
    assert (C : forall acc tl, clean_comps true acc ((c :: cs) ++ tl) = clean_comps true (rev (c :: cs) ++ acc) tl).
    { clear G Hs. generalize (c :: cs) as l, Hcs. clear. induction l as [|x l IH]; intros H acc tl; [reflexivity|].
      cbn [app clean_comps]. destruct (H x (or_introl eq_refl)) as (H1 & H2 & H3 & _).
      apply beq_neq in H1, H2, H3. rewrite H1, H2, H3. cbn [orb]. rewrite IH by (intros; apply H; now right).
      cbn [rev]. now rewrite <- app_assoc. }
    split.
    + assert (split_on slash (join_with slash (c :: cs) ++ [slash; slash]) = (c :: cs) ++ [[]; []]) as ->.
      { change [slash; slash] with (slash :: [] ++ slash :: []).
        assert (G2 : split_on slash (join_with slash ((c :: cs) ++ [[]] ++ [[]])) = (c :: cs) ++ [[]] ++ [[]]).
        { apply split_join; [discriminate|]. intros v Hv. apply in_app_or in Hv as [Hv|[<-|[<-|[]]]]; auto. }
        rewrite app_assoc in G2. rewrite (join_snoc slash ((c :: cs) ++ [[]]) []) in G2 by discriminate.
        rewrite (join_snoc slash (c :: cs) []) in G2 by discriminate.
        rewrite <- !app_assoc in G2. exact G2. }
      rewrite C. cbn [clean_comps]. rewrite beq_refl. cbn [orb]. cbn [clean_comps].
      rewrite app_nil_r, rev_involutive. reflexivity.
    + rewrite G by (intros [H|[]]; discriminate). rewrite C. cbn [clean_comps]. cbn [beq].
      change (clean_comps true (rev (c :: cs) ++ []) [["."%char]]) with (rev (rev (c :: cs) ++ [])).
      rewrite app_nil_r, rev_involutive. reflexivity.
Qed.

Lemma path_base_nonempty s : path_base s <> [].
Proof.
  unfold path_base. destruct s; [discriminate|].
  destruct (snd (cut_last_slash (rev (strip_slashes (rev (a :: s)))))); discriminate.
Qed.

(** a joined path is a directory, or the file of that name in the directory *)
Lemma join_base f ds d n : docs_exist f ds -> In d ds ->
  is_dir f (path_join (path_dir (d_uri_path d)) (path_base n)) = false ->
  file_in (path_dir (d_uri_path d)) (path_base n) (path_join (path_dir (d_uri_path d)) (path_base n)).
Proof.
  intros He Hd Hnd. destruct (He d Hd) as ([r Hr] & Hd1 & Hd2). rewrite Hr in *.
  destruct (path_dir_rooted r) as (cs & Hcs & Hnorm). rewrite Hcs in *.
  destruct (path_join_slash cs Hnorm) as [J1 J2].
  assert (Hn : normal (path_base n)).
  { split; [apply path_base_nonempty|]. split; [|split].
    - intros E. rewrite E in Hnd. congruence.
    - intros E. rewrite E in Hnd. congruence.
    - intros H. apply path_base_noslash in H. rewrite H in Hnd. congruence. }
  unfold file_in. split; [apply Hn|]. split; [apply Hn|]. now apply path_join_normal.
Qed.

(* ---------- the directory map ---------- *)
Lemma hd_split g k : hd [] (split_on semi g) = k ->
  ~ In semi k /\ (g = k \/ exists rest, g = k ++ semi :: rest).
Proof.
  intros <-. split.
  - pose proof (split_on_nonempty semi g). pose proof (split_on_sep_free semi g).
    destruct (split_on semi g); [congruence|]. apply H0. now left.
  - pose proof (join_split semi g) as J. destruct (split_on semi g) as [|w [|w' ws]] eqn:E.
    + now apply split_on_nonempty in E.
    + left. exact (eq_sym J).
    + right. exists (join_with semi (w' :: ws)). symmetry. exact J.
Qed.

Definition sound (ds : list doc) (m : dirmap) : Prop :=
  forall k v, lookup m k = Some v -> exists d, In d ds /\ selected d /\ v = path_dir (d_uri_path d) /\
    forall n, path_dir n = k -> belongs n d.

Definition complete (ds : list doc) (m : dirmap) : Prop :=
  forall d n, In d ds -> selected d -> belongs n d -> lookup m (path_dir n) <> None.

Lemma output_dirs_spec ds : forall pre m roots m' roots',
  output_dirs m roots ds = Some (m', roots') ->
  sound pre m -> complete pre m ->
  sound (pre ++ ds) m' /\ complete (pre ++ ds) m'.
Proof.
  induction ds as [|d ds IH]; intros pre m roots m' roots' H Hs Hc; cbn [output_dirs] in H.
  - injection H as <- <-. now rewrite app_nil_r.
  - destruct (d_found d); [|discriminate]. cbn [negb] in H.
    change (d :: ds) with ([d] ++ ds). rewrite app_assoc.
    assert (Hs' : sound (pre ++ [d]) m).
    { intros k v Hk. destruct (Hs k v Hk) as (d' & Hd & Hx). exists d'. split; [apply in_or_app; now left|assumption]. }
    destruct (beq (d_package d) []) eqn:Ep.
    { eapply IH; [exact H|exact Hs'|]. apply beq_eq in Ep. intros d' n Hd Hsel Hb.
      apply in_app_or in Hd as [Hd|[<-|[]]]; [eapply Hc; eassumption|]. destruct Hsel; congruence. }
    destruct (d_nogen d) eqn:En.
    { eapply IH; [exact H|exact Hs'|]. intros d' n Hd Hsel Hb.
      apply in_app_or in Hd as [Hd|[<-|[]]]; [eapply Hc; eassumption|]. destruct Hsel; congruence. }
    apply beq_neq in Ep. assert (Hsel : selected d) by (split; assumption).
    assert (Hind : In d (pre ++ [d])) by (apply in_or_app; right; now left).
    set (m1 := (path_dir (d_file_path d), path_dir (d_uri_path d)) :: m) in *.
    assert (Hs1 : sound (pre ++ [d]) m1).
    { intros k v Hk. unfold m1 in Hk. cbn [lookup] in Hk. destruct (beq (path_dir (d_file_path d)) k) eqn:Ek.
      - injection Hk as <-. apply beq_eq in Ek. exists d. repeat split; auto. intros n Hn. left. congruence.
      - now apply Hs'. }
    assert (Hmono : forall k, lookup m k <> None -> lookup m1 k <> None).
    { intros k Hk. unfold m1. cbn. destruct (beq _ k); [discriminate|assumption]. }
    destruct (d_go_package d) as [g|] eqn:Eg; cbn zeta in H.
    + eapply IH; [exact H| |].
      * intros k v Hk. cbn [lookup] in Hk. destruct (beq (hd [] (split_on semi g)) k) eqn:Ek; [|now apply Hs1].
        injection Hk as <-. apply beq_eq in Ek. exists d. repeat split; auto. intros n Hn. right.
        apply hd_split in Ek as [Hns [Hg|[rest Hg]]].
        -- exists g, []. rewrite Hn. auto.
        -- exists g, rest. rewrite Hn. auto.
      * intros d' n Hd Hsel' Hb. cbn [lookup]. destruct (beq (hd [] (split_on semi g)) (path_dir n)) eqn:Ek; [discriminate|].
        apply in_app_or in Hd as [Hd|[<-|[]]]; [apply Hmono; eapply Hc; eassumption|].
        destruct Hb as [Hb|(g' & rest & Hg' & Hns & Hb)].
        -- unfold m1. cbn. rewrite Hb, beq_refl. discriminate.
        -- rewrite Eg in Hg'. injection Hg' as <-. apply beq_neq in Ek. elim Ek. destruct Hb as [->| ->].
           ++ now rewrite split_on_no_sep.
           ++ now rewrite split_on_app.
    + eapply IH; [exact H|exact Hs1|].
      intros d' n Hd Hsel' Hb. apply in_app_or in Hd as [Hd|[<-|[]]]; [apply Hmono; eapply Hc; eassumption|].
      destruct Hb as [Hb|(g' & rest & Hg' & _)]; [|congruence].
      unfold m1. cbn. rewrite Hb, beq_refl. discriminate.
Qed.

Lemma output_dirs_init ds m roots : output_dirs [] [] ds = Some (m, roots) -> sound ds m /\ complete ds m.
Proof.
  intros H. apply (output_dirs_spec ds [] [] [] m roots H); intros ? ?; [discriminate|intros []].
Qed.

(* ---------- the write loop ---------- *)
Lemma write_dirs f p c : is_dir (write f p c) = is_dir f.
Proof. reflexivity. Qed.

Lemma docs_exist_write f p c ds : docs_exist f ds -> docs_exist (write f p c) ds.
Proof. intros H. exact H. Qed.

Lemma write_loop_frame ds m io : sound ds m -> forall outs n f errs f' r,
  docs_exist f ds -> write_loop m io n f errs outs = (f', r) ->
  forall p, files f' p <> files f p -> exists name c, In (name, c) outs /\ placed ds name p.
Proof.
  intros Hs. induction outs as [|[name c] outs IH]; intros n f errs f' r He H p Hp; cbn [write_loop] in H.
  - injection H as <- _. congruence.
  - destruct (lookup m (path_dir name)) as [dir|] eqn:El.
    + set (q := path_join dir (path_base name)) in *.
      destruct (is_dir f q) eqn:Ed; [injection H as <- _; congruence|].
      assert (Hq : placed ds name q).
      { destruct (Hs _ _ El) as (d & Hd & Hsel & -> & Hb). exists d. repeat split; try apply Hsel; auto.
        - apply path_base_nonempty.
        - now apply (join_base f ds d name).
        - now apply (join_base f ds d name). }
      destruct (io n) as [lft|].
      * injection H as <- _. cbn in Hp. destruct (beq p q) eqn:Epq; [|congruence].
        apply beq_eq in Epq. subst p. exists name, c. split; [now left|assumption].
      * destruct (beq p q) eqn:Epq.
        -- apply beq_eq in Epq. subst p. exists name, c. split; [now left|assumption].
        -- eapply (IH (S n) _ errs f' r) in H; [|exact He|cbn; rewrite Epq; exact Hp].
           destruct H as (name' & c' & Hin & Hpl). exists name', c'. split; [now right|assumption].
    + eapply (IH n f true f' r) in H; [|exact He|exact Hp].
      destruct H as (name' & c' & Hin & Hpl). exists name', c'. split; [now right|assumption].
Qed.

(** success: nothing was skipped *)
Lemma write_loop_done ds m io : sound ds m -> forall outs n f errs f',
  docs_exist f ds -> write_loop m io n f errs outs = (f', Done) ->
  errs = false /\
  (forall name c, In (name, c) outs -> exists p, placed ds name p /\
     exists name' c', In (name', c') outs /\ placed ds name' p /\ files f' p = Some c') /\
  (forall p, (forall name c, In (name, c) outs -> ~ placed ds name p) -> files f' p = files f p).
Proof.
  intros Hs. induction outs as [|[name c] outs IH]; intros n f errs f' He H; cbn [write_loop] in H.
  - destruct errs; [discriminate|]. injection H as <-. split; [reflexivity|]. split; [intros ? ? []|reflexivity].
  - destruct (lookup m (path_dir name)) as [dir|] eqn:El.
    + set (q := path_join dir (path_base name)) in *.
      destruct (is_dir f q) eqn:Ed; [discriminate|].
      assert (Hq : placed ds name q).
      { destruct (Hs _ _ El) as (d & Hd & Hsel & -> & Hb). exists d. repeat split; try apply Hsel; auto.
        - apply path_base_nonempty.
        - now apply (join_base f ds d name).
        - now apply (join_base f ds d name). }
      destruct (io n) as [lft|]; [discriminate|].
      destruct (IH (S n) (write f q (Some c)) errs f' He H) as (He' & Hw & Hfr).
      split; [assumption|]. split.
      * intros name0 c0 [[= <- <-]|Hin].
        -- exists q. split; [assumption|].
           (* either overwritten later or still ours *)
           assert (D : (exists name' c', In (name', c') outs /\ placed ds name' q /\ files f' q = Some c') \/ files f' q = Some c).
           { clear - Hs He H Hfr Hq Hw.
             assert (G : forall outs n f, docs_exist f ds -> write_loop m io n f errs outs = (f', Done) ->
                 (exists name' c', In (name', c') outs /\ placed ds name' q /\ files f' q = Some c') \/ files f' q = files f q).
             { induction outs0 as [|[nm ct] os IHo]; intros n0 f0 He0 H0; cbn [write_loop] in H0.
               - injection H0 as <-. now right.
               - destruct (lookup m (path_dir nm)) as [dr|] eqn:El0.
                 + set (q0 := path_join dr (path_base nm)) in *. destruct (is_dir f0 q0) eqn:Ed0; [discriminate|].
                   destruct (io n0) as [|]; [discriminate|].
                   destruct (IHo (S n0) (write f0 q0 (Some ct)) He0 H0) as [(a & b & Hab & Hpl & Hf)|Hf].
                   * left. exists a, b. split; [now right|auto].
                   * cbn in Hf. destruct (beq q q0) eqn:Eq; [|now right].
                     apply beq_eq in Eq. left. exists nm, ct. split; [now left|]. split; [|assumption].
                     rewrite Eq. destruct (Hs _ _ El0) as (d & Hd & Hsel & -> & Hb). exists d. repeat split; try apply Hsel; auto.
                     -- apply path_base_nonempty.
                     -- now apply (join_base f0 ds d nm).
                     -- now apply (join_base f0 ds d nm).
                 + exfalso. clear - H0. assert (G : forall os n f, snd (write_loop m io n f true os) <> Done).
                   { clear. induction os as [|[a b] os IH]; intros n f; cbn; [discriminate|].
                     destruct (lookup m (path_dir a)); [|apply IH]. destruct (is_dir f _); [discriminate|].
                     destruct (io n); [discriminate|apply IH]. }
                   apply (G os n0 f0). now rewrite H0. }
             destruct (G outs (S n) (write f q (Some c)) He H) as [HG|HG]; [now left|right].
             rewrite HG. cbn. now rewrite beq_refl. }
           destruct D as [(a & b & Hab & Hpl & Hf)|Hf].
           ++ exists a, b. split; [now right|auto].
           ++ exists name, c. split; [now left|auto].
        -- destruct (Hw name0 c0 Hin) as (p & Hp & a & b & Hab & Hpl & Hf). exists p. split; [assumption|].
           exists a, b. split; [now right|auto].
      * intros p Hp. rewrite Hfr by (intros; apply (Hp name0 c0); now right). cbn.
        destruct (beq p q) eqn:Epq; [|reflexivity]. apply beq_eq in Epq. subst p.
        elim (Hp name c (or_introl eq_refl)). assumption.
    + destruct (IH n f true f' He H) as (Hx & _). discriminate.
Qed.

Lemma output_dirs_roots ds : forall m roots m' roots', output_dirs m roots ds = Some (m', roots') -> roots' = roots ++ participants ds.
Proof.
  induction ds as [|d ds IH]; intros m roots m' roots' H; cbn [output_dirs] in H.
  - injection H as _ <-. now rewrite app_nil_r.
  - destruct (d_found d); [|discriminate]. cbn [negb] in H. unfold participants. cbn [filter]. fold (participants ds).
    destruct (beq (d_package d) []); cbn [negb andb]; [now apply IH in H|].
    destruct (d_nogen d); cbn [negb]; apply IH in H; [exact H|]. now rewrite <- app_assoc in H.
Qed.
Lemma do_generate_frame gen io f ds f' r : docs_exist f ds -> do_generate gen io f ds = (f', r) ->
  forall p, files f' p <> files f p ->
  exists outs name c, gen (participants ds) = Some outs /\ In (name, c) outs /\ placed ds name p.
Proof.
  intros He H p Hp. unfold do_generate in H.
  destruct (output_dirs [] [] ds) as [[m roots]|] eqn:Eo; [|injection H as <- _; congruence].
  destruct (output_dirs_init _ _ _ Eo) as [Hs _].
  destruct (gen roots) as [outs|] eqn:Eg; [|injection H as <- _; congruence].
  destruct (write_loop_frame ds m io Hs outs 0 f false f' r He H p Hp) as (name & c & Hin & Hpl).
  pose proof (output_dirs_roots _ _ _ _ _ Eo) as Er. cbn [app] in Er. subst roots. exists outs, name, c. auto.
Qed.

Lemma do_generate_done gen io f ds f' : docs_exist f ds -> do_generate gen io f ds = (f', Done) ->
  exists outs, gen (participants ds) = Some outs /\
  (forall name c, In (name, c) outs -> exists p, placed ds name p /\
     exists name' c', In (name', c') outs /\ placed ds name' p /\ files f' p = Some c') /\
  (forall p, (forall name c, In (name, c) outs -> ~ placed ds name p) -> files f' p = files f p).
Proof.
  intros He H. unfold do_generate in H.
  destruct (output_dirs [] [] ds) as [[m roots]|] eqn:Eo; [|discriminate].
  destruct (output_dirs_init _ _ _ Eo) as [Hs _].
  destruct (gen roots) as [outs|] eqn:Eg; [|discriminate].
  destruct (write_loop_done ds m io Hs outs 0 f false f' He H) as (_ & H1 & H2).
  pose proof (output_dirs_roots _ _ _ _ _ Eo) as Er. cbn [app] in Er. subst roots. exists outs. auto.
Qed.

Lemma placed_belongs ds n p : placed ds n p -> exists d, In d ds /\ selected d /\ belongs n d.
Proof. intros (d & H1 & H2 & H3 & _). eauto. Qed.

Lemma write_loop_accepts ds m io : complete ds m -> forall outs n f errs f' r,
  (forall name c, In (name, c) outs -> exists d, In d ds /\ selected d /\ belongs name d) ->
  write_loop m io n f errs outs = (f', r) -> r = Aborted \/ r = if errs then DoneWithErrors else Done.
Proof.
  intros Hc. induction outs as [|[name c] outs IH]; intros n f errs f' r Hb H; cbn [write_loop] in H.
  - injection H as _ <-. now right.
  - destruct (lookup m (path_dir name)) as [dir|] eqn:El.
    + destruct (is_dir f _); [injection H as _ <-; now left|].
      destruct (io n); [injection H as _ <-; now left|].
      eapply IH; [|exact H]. intros; eapply Hb; right; eassumption.
    + exfalso. destruct (Hb name c (or_introl eq_refl)) as (d & Hd & Hsel & Hbl). eapply Hc; eassumption.
Qed.

Lemma do_generate_accepts gen io f ds f' r :
  (forall outs name c, gen (participants ds) = Some outs -> In (name, c) outs ->
     exists d, In d ds /\ selected d /\ belongs name d) ->
  do_generate gen io f ds = (f', r) -> r <> DoneWithErrors.
Proof.
  intros Hb H. unfold do_generate in H.
  destruct (output_dirs [] [] ds) as [[m roots]|] eqn:Eo; [|injection H as _ <-; discriminate].
  destruct (output_dirs_init _ _ _ Eo) as [_ Hc].
  destruct (gen roots) as [outs|] eqn:Eg; [|injection H as _ <-; discriminate].
  destruct (write_loop_accepts ds m io Hc outs 0 f false f' r) as [-> | ->]; try discriminate; auto.
  pose proof (output_dirs_roots _ _ _ _ _ Eo) as Er. cbn [app] in Er. subst roots. intros; eapply Hb; eassumption.
Qed.
