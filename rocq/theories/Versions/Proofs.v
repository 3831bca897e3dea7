From Verif Require Import Base.
From Verif.Versions Require Import Model Spec.

(* --- streams --- *)
Lemma pubs_app h1 h2 : pubs (h1 ++ h2) = pubs h1 ++ pubs h2.
Proof. unfold pubs. now rewrite flat_map_app. Qed.

Lemma latest_app p q u :
  latest (p ++ q) u = match latest q u with Some x => Some x | None => latest p u end.
Proof.
  induction p as [|[u' v] p IH]; cbn.
  - now destruct (latest q u).
  - rewrite IH. now destruct (latest q u).
Qed.

Lemma latest_snoc p u' v u :
  latest (p ++ [(u', v)]) u = if Nat.eqb u' u then Some v else latest p u.
Proof. rewrite latest_app. cbn. now destruct (Nat.eqb u' u). Qed.

Lemma immediate_spec cur v : immediate cur v = true <-> satisfies cur v.
Proof.
  unfold immediate, satisfies. destruct cur as [c|]; split.
  - intros H. exists c. split; [reflexivity|].
    apply orb_true_iff in H as [H|H]; [left|right]; lia.
  - intros (c' & [= <-] & H). apply orb_true_iff.
    destruct H; [left|right]; lia.
  - discriminate.
  - intros (c & ? & _). discriminate.
Qed.

Lemma releases_spec mv v : releases mv v = true <-> satisfies (Some mv) v.
Proof.
  unfold releases, satisfies. split.
  - intros H. exists mv. split; [reflexivity|].
    apply orb_true_iff in H as [H|H]; [right|left]; lia.
  - intros (c & [= <-] & H). apply orb_true_iff. destruct H; [right|left]; lia.
Qed.

(* --- the invariant --- *)

(** Ghost view: for each waiter, the (uri, version, publication stream at its
    call); [p] is the whole publication stream so far. *)
Definition ghost := waiter -> option (uri * Z * list (uri * Z)).

Definition sat_in (p0 p : list (uri * Z)) (u : uri) (v : Z) : Prop :=
  exists q, prefix_of p0 q /\ prefix_of q p /\ satisfies (latest q u) v.

Record Inv (s : st) (p : list (uri * Z)) (g : ghost) : Prop := {
  i_ver : forall u, versions s u = latest p u;
  i_qc : NoDup (map snd (queue s));
  i_qk : NoDup (map fst (queue s));
  i_qopen : forall u v c, In (u, v, c) (queue s) -> closed s c = false /\ c < nextc s;
  i_closed_lt : forall c, closed s c = true -> c < nextc s;
  i_none : forall w, wait s w = WNone <-> g w = None;
  i_blk : forall w c u v p0, wait s w = WBlocked c -> g w = Some (u, v, p0) ->
           prefix_of p0 p /\
           c < nextc s /\
           ((closed s c = false /\ In (u, v, c) (queue s) /\ ~ sat_in p0 p u v) \/
            (closed s c = true /\ sat_in p0 p u v));
  i_ret : forall w u v p0, wait s w = WRet true -> g w = Some (u, v, p0) ->
           sat_in p0 p u v;
  i_panic : panicked s = false
}.

Lemma qfind_in q u v c : qfind q u v = Some c -> In (u, v, c) q.
Proof.
  induction q as [|[[u' v'] c'] q IH]; cbn; [discriminate|].
  destruct (Nat.eqb_spec u' u), (Z.eqb_spec v' v); cbn; intros H; auto.
  injection H as <-. subst. now left.
Qed.

Lemma qfind_none q u v c : qfind q u v = None -> ~ In (u, v, c) q.
Proof.
  induction q as [|[[u' v'] c'] q IH]; cbn; [auto|].
  destruct (Nat.eqb_spec u' u), (Z.eqb_spec v' v); cbn; intros H [E|E];
    try discriminate; try (injection E as -> -> ->; congruence); now apply IH.
Qed.

(* one publication *)
Lemma fold_close1 hits cl p :
  (forall e, In e hits -> cl (snd e) = false) ->
  NoDup (map snd hits) ->
  exists cl', fold_left close1 hits (cl, p) = (cl', p) /\
    (forall c, cl' c = (cl c || existsb (fun e => Nat.eqb c (snd e)) hits)%bool).
Proof.
  revert cl; induction hits as [|[[u v] c] hits IH]; intros cl Ho Hn.
  - exists cl. split; [reflexivity|]. intros. cbn. now rewrite orb_false_r.
  - cbn [fold_left close1]. pose proof (Ho (u, v, c) (or_introl eq_refl)) as E0.
    cbn in E0. rewrite E0, orb_false_r. clear E0. inversion Hn as [|? ? Hni Hn']; subst.
    destruct (IH (upd cl c true)) as (cl' & E & Hc); [|assumption|].
    + intros e He. destruct (Nat.eq_dec (snd e) c) as [Hec|Hne].
      * elim Hni. rewrite <- Hec. now apply in_map.
      * rewrite upd_other by assumption. apply Ho. now right.
    + exists cl'. split; [exact E|]. intros c0. rewrite Hc. cbn.
      unfold upd. destruct (Nat.eqb c0 c); cbn; [|reflexivity].
      now rewrite orb_true_r.
Qed.

Lemma NoDup_map_filter {A B} (f : A -> B) (q : A -> bool) l :
  NoDup (map f l) -> NoDup (map f (filter q l)).
Proof.
  induction l as [|a l IH]; cbn; [auto|]. intros H. inversion H as [|? ? Hni Hn]; subst.
  destruct (q a); cbn; [constructor|]; auto.
  intros Hin. apply Hni. apply in_map_iff in Hin as (x & <- & Hx).
  apply filter_In in Hx. apply in_map. tauto.
Qed.

Lemma NoDup_map_inj {A B} (f : A -> B) l x y :
  NoDup (map f l) -> In x l -> In y l -> f x = f y -> x = y.
Proof.
  induction l as [|a l IH]; cbn; [tauto|]. intros H. inversion H as [|? ? Hni Hn]; subst.
  intros [->|Hx] [->|Hy] E; auto.
  - elim Hni. rewrite E. now apply in_map.
  - elim Hni. rewrite <- E. now apply in_map.
Qed.

Lemma sat_in_snoc p0 p m u v :
  prefix_of p0 p ->
  (sat_in p0 (p ++ [m]) u v <->
   sat_in p0 p u v \/ satisfies (latest (p ++ [m]) u) v).
Proof.
  intros Hp. split.
  - intros (q & H1 & H2 & H3). apply prefix_of_snoc_inv in H2 as [H2|H2].
    + left. now exists q.
    + right. now rewrite <- H2.
  - intros [(q & H1 & H2 & H3)|H].
    + exists q. split; [assumption|]. split; [|assumption].
      eapply prefix_of_trans; [exact H2|apply prefix_of_app].
    + exists (p ++ [m]). split; [|split; [apply prefix_of_refl|assumption]].
      eapply prefix_of_trans; [exact Hp|apply prefix_of_app].
Qed.

Lemma Inv_update1 s p g m : Inv s p g -> Inv (update1 s m) (p ++ [m]) g.
Proof.
  intros I. destruct I as [Iver Iqc Iqk Iqo Icl In0 Iblk Iret Ipan].
  unfold update1.
  destruct (fold_close1 (filter (hit m) (queue s)) (closed s) (panicked s))
    as (cl' & E & Hc).
  { intros [[u v] c] He. apply filter_In in He as [He _]. now apply (Iqo u v c). }
  { now apply NoDup_map_filter. }
  rewrite E. destruct m as [mu mv].
  assert (Hmono : forall c, closed s c = true -> cl' c = true).
  { intros c H. rewrite Hc, H. reflexivity. }
  constructor; cbn.
  - intros u. rewrite latest_snoc. unfold upd.
    rewrite (Nat.eqb_sym u mu). destruct (Nat.eqb mu u); [reflexivity|apply Iver].
  - now apply NoDup_map_filter.
  - now apply NoDup_map_filter.
  - intros u v c H. apply filter_In in H as [H Hh].
    destruct (Iqo u v c H) as [H1 H2]. split; [|assumption].
    rewrite Hc, H1. cbn. apply not_true_iff_false. intros Hx.
    apply existsb_exists in Hx as (e & He & Hce). apply Nat.eqb_eq in Hce.
    apply filter_In in He as [He Hhe].
    assert (e = (u, v, c)) as ->.
    { apply (NoDup_map_inj snd (queue s)); auto. }
    rewrite Hhe in Hh. discriminate.
  - intros c H. rewrite Hc in H. apply orb_true_iff in H as [H|H]; [auto|].
    apply existsb_exists in H as ([[u v] c'] & He & Hce). apply Nat.eqb_eq in Hce.
    apply filter_In in He as [He _]. cbn in Hce. subst.
    now apply (Iqo u v).
  - exact In0.
  - intros w c u v p0 Hw Hg. destruct (Iblk w c u v p0 Hw Hg) as (Hp & Hlt & Hd).
    split; [eapply prefix_of_trans; [exact Hp|apply prefix_of_app]|].
    split; [assumption|].
    rewrite (sat_in_snoc p0 p (mu, mv) u v Hp).
    destruct Hd as [(Ho & Hq & Hns)|(Hcl & Hs)].
    + destruct (hit (mu, mv) (u, v, c)) eqn:Eh.
      * right. split.
        -- rewrite Hc. apply orb_true_iff. right. apply existsb_exists.
           exists (u, v, c). split; [|apply Nat.eqb_refl].
           apply filter_In. now split.
        -- right. cbn in Eh. apply andb_true_iff in Eh as [Eu Er].
           apply Nat.eqb_eq in Eu. subst u. rewrite latest_snoc, Nat.eqb_refl.
           now apply releases_spec.
      * left. split; [|split].
        -- rewrite Hc, Ho. cbn. apply not_true_iff_false. intros Hx.
           apply existsb_exists in Hx as (e & He & Hce). apply Nat.eqb_eq in Hce.
           apply filter_In in He as [He Hhe].
           assert (e = (u, v, c)) as ->.
           { apply (NoDup_map_inj snd (queue s)); auto. }
           rewrite Hhe in Eh. discriminate.
        -- apply filter_In. split; [assumption|]. now rewrite Eh.
        -- intros [H|H]; [contradiction|].
           rewrite latest_snoc in H. cbn in Eh.
           destruct (Nat.eqb_spec mu u) as [->|Hne].
           ++ apply releases_spec in H. rewrite H, Nat.eqb_refl in Eh. discriminate.
           ++ apply Hns. exists p. split; [assumption|].
              split; [apply prefix_of_refl|assumption].
    + right. split; [now apply Hmono|]. now left.
  - intros w u v p0 Hw Hg. destruct (Iret w u v p0 Hw Hg) as (q & H1 & H2 & H3).
    exists q. split; [assumption|]. split; [|assumption].
    eapply prefix_of_trans; [exact H2|apply prefix_of_app].
  - assumption.
Qed.

Lemma Inv_update s p g mods : Inv s p g -> Inv (update s mods) (p ++ mods) g.
Proof.
  unfold update. revert s p; induction mods as [|m mods IH]; intros s p I; cbn.
  - now rewrite app_nil_r.
  - replace (p ++ m :: mods) with ((p ++ [m]) ++ mods) by now rewrite <- app_assoc.
    apply IH. now apply Inv_update1.
Qed.

Definition gstep (g : ghost) (p : list (uri * Z)) (o : op) : ghost :=
  match o with
  | OEnter w u v =>
      match g w with None => upd g w (Some (u, v, p)) | Some _ => g end
  | _ => g
  end.

Lemma sat_in_refl p u v : sat_in p p u v <-> satisfies (latest p u) v.
Proof.
  split.
  - intros (q & [r1 H1] & [r2 H2] & H3). subst q.
    assert (r1 = []) as ->.
    { apply (f_equal (@length _)) in H2. rewrite !app_length in H2.
      destruct r1; [reflexivity|cbn in H2; lia]. }
    now rewrite app_nil_r in H3.
  - intros H. exists p. repeat split; auto using prefix_of_refl.
Qed.

Lemma Inv_set_wait_ret s p g w (Hn : wait s w = WNone) u v :
  Inv s p g -> satisfies (latest p u) v ->
  Inv (mkSt (versions s) (queue s) (nextc s) (closed s)
            (upd (wait s) w (WRet true)) (panicked s)) p (upd g w (Some (u, v, p))).
Proof.
  intros [Iver Iqc Iqk Iqo Icl In0 Iblk Iret Ipan] Hs. constructor; cbn; auto.
  - intros w'. unfold upd. destruct (Nat.eqb w' w); [split; discriminate|apply In0].
  - intros w' c u' v' p0. unfold upd. destruct (Nat.eqb w' w); [discriminate|apply Iblk].
  - intros w' u' v' p0. unfold upd. destruct (Nat.eqb w' w); [|apply Iret].
    intros _ [= <- <- <-]. now apply sat_in_refl.
Qed.

Lemma Inv_step s p g o : Inv s p g -> Inv (step s o) (p ++ pubs1 o) (gstep g p o).
Proof.
  intros I. pose proof I as [Iver Iqc Iqk Iqo Icl In0 Iblk Iret Ipan].
  destruct o as [w u v|w|w|mods]; cbn [step pubs1 gstep]; rewrite ?app_nil_r.
  - unfold enter. destruct (wait s w) as [|c|b] eqn:Ew.
    + assert (g w = None) as Hg by now apply In0. rewrite Hg.
      destruct (immediate (versions s u) v) eqn:Ei.
      * apply Inv_set_wait_ret; auto. rewrite <- Iver. now apply immediate_spec.
      * assert (Hns : ~ sat_in p p u v).
        { rewrite sat_in_refl, <- Iver, <- immediate_spec. congruence. }
        destruct (qfind (queue s) u v) as [c|] eqn:Eq.
        -- apply qfind_in in Eq. destruct (Iqo _ _ _ Eq) as [Ho Hlt].
           constructor; cbn; auto.
           ++ intros w'. unfold upd. destruct (Nat.eqb w' w); [split; discriminate|apply In0].
           ++ intros w' c' u' v' p0. unfold upd. destruct (Nat.eqb w' w); [|apply Iblk].
              intros [= <-] [= <- <- <-]. split; [apply prefix_of_refl|]. split; [assumption|].
              now left.
           ++ intros w' u' v' p0. unfold upd. destruct (Nat.eqb w' w); [discriminate|apply Iret].
        -- assert (Hfresh : closed s (nextc s) = false).
           { apply not_true_iff_false. intros H. apply Icl in H. lia. }
           constructor; cbn; auto.
           ++ constructor; [|assumption]. intros H. apply in_map_iff in H as ([[u' v'] c'] & Hc & H).
              cbn in Hc. subst. apply Iqo in H. lia.
           ++ constructor; [|assumption]. intros H. apply in_map_iff in H as ([[u' v'] c'] & Hc & H).
              cbn in Hc. injection Hc as -> ->. eapply qfind_none in H; eassumption.
           ++ intros u' v' c' [[= <- <- <-]|H]; [split; [assumption|lia]|].
              apply Iqo in H. split; [tauto|lia].
           ++ intros c' H. apply Icl in H. lia.
           ++ intros w'. unfold upd. destruct (Nat.eqb w' w); [split; discriminate|apply In0].
           ++ intros w' c' u' v' p0. unfold upd. destruct (Nat.eqb w' w).
              ** intros [= <-] [= <- <- <-]. split; [apply prefix_of_refl|]. split; [lia|].
                 left. auto.
              ** intros H1 H2. destruct (Iblk _ _ _ _ _ H1 H2) as (Ha & Hb & Hc).
                 split; [assumption|]. split; [lia|].
                 destruct Hc as [(?&?&?)|?]; [left|right]; auto.
           ++ intros w' u' v' p0. unfold upd. destruct (Nat.eqb w' w); [discriminate|apply Iret].
    + destruct (g w) eqn:Hg; [exact I|]. apply In0 in Hg. congruence.
    + destruct (g w) eqn:Hg; [exact I|]. apply In0 in Hg. congruence.
  - unfold recv. destruct (wait s w) as [|c|b] eqn:Ew; auto.
    destruct (closed s c) eqn:Ec; auto.
    constructor; cbn; auto.
    + intros w'. unfold upd. destruct (Nat.eqb_spec w' w) as [->|Hne]; [|apply In0].
      rewrite <- In0, Ew. split; discriminate.
    + intros w' c' u' v' p0. unfold upd. destruct (Nat.eqb w' w); [discriminate|apply Iblk].
    + intros w' u' v' p0. unfold upd. destruct (Nat.eqb_spec w' w) as [->|Hne]; [|apply Iret].
      intros _ Hg. destruct (Iblk _ _ _ _ _ Ew Hg) as (_ & _ & [(H & _)|(_ & H)]); congruence.
  - unfold cancel. destruct (wait s w) as [|c|b] eqn:Ew; auto.
    constructor; cbn; auto.
    + intros w'. unfold upd. destruct (Nat.eqb_spec w' w) as [->|Hne]; [|apply In0].
      rewrite <- In0, Ew. split; discriminate.
    + intros w' c' u' v' p0. unfold upd. destruct (Nat.eqb w' w); [discriminate|apply Iblk].
    + intros w' u' v' p0. unfold upd. destruct (Nat.eqb_spec w' w) as [->|Hne]; [discriminate|apply Iret].
  - now apply Inv_update.
Qed.

Lemma Inv_init : Inv init [] (fun _ => None).
Proof.
  constructor; cbn; try (intros; discriminate); auto; try constructor; try tauto.
Qed.

(** The ghost of a history. *)
Fixpoint ghost_of (h : list op) (g : ghost) (p : list (uri * Z)) : ghost :=
  match h with
  | [] => g
  | o :: h' => ghost_of h' (gstep g p o) (p ++ pubs1 o)
  end.

Lemma Inv_run_from h s p g : Inv s p g ->
  Inv (fold_left step h s) (p ++ pubs h) (ghost_of h g p).
Proof.
  revert s p g; induction h as [|o h IH]; intros s p g I; cbn.
  - now rewrite app_nil_r.
  - rewrite app_assoc. apply IH. now apply Inv_step.
Qed.

Lemma Inv_run h : Inv (run h) (pubs h) (ghost_of h (fun _ => None) []).
Proof. apply (Inv_run_from h init [] (fun _ => None)). apply Inv_init. Qed.

Lemma ghost_of_app h1 h2 g p :
  ghost_of (h1 ++ h2) g p = ghost_of h2 (ghost_of h1 g p) (p ++ pubs h1).
Proof.
  revert g p; induction h1 as [|o h1 IH]; intros g p; cbn.
  - now rewrite app_nil_r.
  - rewrite IH. now rewrite <- app_assoc.
Qed.

Lemma ghost_keep h g p w x : g w = Some x -> ghost_of h g p w = Some x.
Proof.
  revert g p; induction h as [|o h IH]; intros g p H; cbn; [assumption|].
  apply IH. destruct o as [w' u v|w'|w'|mods]; cbn; auto.
  destruct (g w') eqn:E; [assumption|]. unfold upd.
  destruct (Nat.eqb_spec w w') as [->|]; congruence.
Qed.

Lemma ghost_none h g p w :
  g w = None -> (forall u v, ~ In (OEnter w u v) h) -> ghost_of h g p w = None.
Proof.
  revert g p; induction h as [|o h IH]; intros g p H Hn; cbn; [assumption|].
  apply IH; [|intros u v Hi; apply (Hn u v); now right].
  destruct o as [w' u v|w'|w'|mods]; cbn; auto.
  destruct (g w') eqn:E; [assumption|]. unfold upd.
  destruct (Nat.eqb_spec w w') as [->|]; [|assumption].
  elim (Hn u v). now left.
Qed.

Lemma ghost_call h w u v h1 h2 :
  calls_wait h w u v h1 h2 ->
  ghost_of h (fun _ => None) [] w = Some (u, v, pubs h1).
Proof.
  intros [-> Hn]. rewrite ghost_of_app. cbn.
  rewrite (ghost_none h1 _ _ w) by auto. apply ghost_keep.
  now rewrite upd_same.
Qed.

Lemma satisfied_since_sat_in h1 h u v :
  satisfied_since h1 h u v <-> sat_in (pubs h1) (pubs h) u v.
Proof. reflexivity. Qed.

Lemma calls_wait_snoc h w u v h1 h2 o :
  calls_wait h w u v h1 h2 -> calls_wait (h ++ [o]) w u v h1 (h2 ++ [o]).
Proof. intros [-> Hn]. split; [now rewrite <- app_assoc|assumption]. Qed.

(** [w]'s call is recoverable from the history if it has any status. *)
Lemma ghost_some_calls h w x :
  ghost_of h (fun _ => None) [] w = Some x ->
  exists u v h1 h2, calls_wait h w u v h1 h2 /\ x = (u, v, pubs h1).
Proof.
  induction h as [|o h IH] using rev_ind; cbn; [discriminate|].
  rewrite ghost_of_app. cbn. destruct o as [w' u v|w'|w'|mods]; cbn; intros H.
  2,3,4: destruct (IH H) as (u' & v' & h1 & h2 & Hc & ->);
    eexists u', v', h1, _; (split; [eapply calls_wait_snoc; exact Hc|reflexivity]).
  destruct (ghost_of h (fun _ => None) [] w') eqn:E.
  - destruct (IH H) as (u' & v' & h1 & h2 & [-> Hn] & ->).
    exists u', v', h1, (h2 ++ [OEnter w' u v]).
    split; [split; [now rewrite <- app_assoc|assumption]|reflexivity].
  - unfold upd in H. destruct (Nat.eqb_spec w w') as [->|Hne].
    + injection H as <-. exists u, v, h, []. split; [split; [reflexivity|]|reflexivity].
      intros u' v' Hi. apply in_split in Hi as (a & b & ->).
      rewrite ghost_of_app in E. cbn in E.
      destruct (ghost_of a (fun _ => None) [] w') eqn:E2.
      * rewrite (ghost_keep _ _ _ _ _ E2) in E. discriminate.
      * rewrite (ghost_keep _ _ _ w' (u', v', pubs a)) in E; [discriminate|].
        now rewrite upd_same.
    + destruct (IH H) as (u' & v' & h1 & h2 & [-> Hn] & ->).
      exists u', v', h1, (h2 ++ [OEnter w' u v]).
      split; [split; [now rewrite <- app_assoc|assumption]|reflexivity].
Qed.

(* --- the property lemmas --- *)

Lemma wait_sound h w :
  returned_ok (run h) w ->
  exists u v h1 h2, calls_wait h w u v h1 h2 /\ satisfied_since h1 h u v.
Proof.
  intros H. pose proof (Inv_run h) as [_ _ _ _ _ In0 _ Iret _].
  destruct (ghost_of h (fun _ => None) [] w) as [[[u v] p0]|] eqn:Hg.
  - destruct (ghost_some_calls _ _ _ Hg) as (u' & v' & h1 & h2 & Hc & [= -> -> ->]).
    exists u', v', h1, h2. split; [assumption|]. eapply Iret; eassumption.
  - apply In0 in Hg. unfold returned_ok in H. congruence.
Qed.

Lemma released_iff h w u v h1 h2 :
  calls_wait h w u v h1 h2 ->
  ~ returned_err (run h) w ->
  (released (run h) w <-> satisfied_since h1 h u v).
Proof.
  intros Hc Hne. pose proof (Inv_run h) as [_ _ _ _ _ In0 Iblk Iret _].
  pose proof (ghost_call _ _ _ _ _ _ Hc) as Hg.
  unfold released, returned_ok, returned_err in *. cbn [step]. unfold recv.
  destruct (wait (run h) w) as [|c|b] eqn:Ew.
  - apply In0 in Ew. congruence.
  - destruct (Iblk _ _ _ _ _ Ew Hg) as (_ & _ & [(Hcl & _ & Hns)|(Hcl & Hs)]); rewrite Hcl; cbn.
    + rewrite Ew. split; [discriminate|]. intros H. elim Hns. exact H.
    + rewrite upd_same. split; auto.
  - destruct b; [|congruence]. rewrite Ew. split; [|auto]. intros _. eapply Iret; eassumption.
Qed.

Lemma wait_no_foreign_release h w u v h1 h2 mods :
  calls_wait h w u v h1 h2 ->
  (forall m, In m mods -> fst m <> u) ->
  ~ released (run h) w -> ~ returned_err (run h) w ->
  ~ released (run (h ++ [OUpdate mods])) w.
Proof.
  intros Hc Hm Hn He.
  assert (Hc' : calls_wait (h ++ [OUpdate mods]) w u v h1 (h2 ++ [OUpdate mods])).
  { destruct Hc as [-> Hc]. split; [now rewrite <- app_assoc|assumption]. }
  assert (He' : ~ returned_err (run (h ++ [OUpdate mods])) w).
  { unfold run. rewrite fold_left_snoc. fold (run h). cbn [step].
    unfold returned_err in *. replace (wait (update (run h) mods) w) with (wait (run h) w); auto.
    generalize (run h); unfold update. clear. induction mods as [|m mods IH]; intros s; [reflexivity|].
    cbn. rewrite <- IH. unfold update1.
    now destruct (fold_left close1 _ _). }
  rewrite (released_iff _ _ _ _ _ _ Hc' He'). rewrite (released_iff _ _ _ _ _ _ Hc He) in Hn.
  unfold satisfied_since in *. rewrite pubs_app. cbn [pubs flat_map pubs1]. rewrite app_nil_r.
  intros H. apply Hn. clear Hn He He' Hc'.
  assert (Hpre : prefix_of (pubs h1) (pubs h)).
  { destruct Hc as [-> _]. rewrite pubs_app. apply prefix_of_app. }
  unfold pubs in *. set (P := flat_map pubs1 h) in *.
  revert H. clearbody P. clear Hc.
  induction mods as [|m mods IH] using rev_ind.
  - now rewrite app_nil_r.
  - intros (p & H1 & H2 & H3). rewrite app_assoc in H2.
    apply prefix_of_snoc_inv in H2 as [H2|H2].
    + apply IH; [intros; apply Hm; apply in_or_app; now left|]. now exists p.
    + subst p. destruct m as [mu mv]. rewrite latest_snoc in H3.
      assert (Hne : mu <> u) by (apply (Hm (mu, mv)); apply in_or_app; right; now left).
      apply Nat.eqb_neq in Hne. rewrite Hne in H3.
      apply IH; [intros; apply Hm; apply in_or_app; now left|].
      exists (P ++ mods). split; [|split; [apply prefix_of_refl|assumption]].
      eapply prefix_of_trans; [exact Hpre|apply prefix_of_app].
Qed.

Lemma later_wait_immediate h w u v :
  (forall u' v', ~ In (OEnter w u' v') h) ->
  satisfies (latest (pubs h) u) v ->
  returned_ok (run (h ++ [OEnter w u v])) w.
Proof.
  intros Hn Hs. pose proof (Inv_run h) as [Iver _ _ _ _ In0 _ _ _].
  unfold run. rewrite fold_left_snoc. fold (run h). cbn [step]. unfold enter, returned_ok.
  assert (wait (run h) w = WNone) as ->.
  { apply In0. now apply ghost_none. }
  rewrite Iver. apply immediate_spec in Hs. rewrite Hs. cbn. apply upd_same.
Qed.

Lemma pending_released_by_update h w u v h1 h2 mods :
  calls_wait h w u v h1 h2 ->
  ~ returned_err (run h) w ->
  (exists mv, In (u, mv) mods /\ satisfies (Some mv) v) ->
  released (run (h ++ [OUpdate mods])) w.
Proof.
  intros Hc He (mv & Hin & Hs).
  assert (Hc' : calls_wait (h ++ [OUpdate mods]) w u v h1 (h2 ++ [OUpdate mods])).
  { destruct Hc as [-> Hc]. split; [now rewrite <- app_assoc|assumption]. }
  assert (He' : ~ returned_err (run (h ++ [OUpdate mods])) w).
  { unfold run. rewrite fold_left_snoc. fold (run h). cbn [step].
    unfold returned_err in *. replace (wait (update (run h) mods) w) with (wait (run h) w); auto.
    generalize (run h); unfold update. clear. induction mods as [|m mods IH]; intros s; [reflexivity|].
    cbn. rewrite <- IH. unfold update1.
    now destruct (fold_left close1 _ _). }
  apply (released_iff _ _ _ _ _ _ Hc' He').
  apply in_split in Hin as (a & b & ->).
  exists (pubs h ++ a ++ [(u, mv)]). split; [|split].
  - eapply prefix_of_trans; [|apply prefix_of_app]. destruct Hc as [-> _].
    rewrite pubs_app. apply prefix_of_app.
  - rewrite pubs_app. cbn. rewrite app_nil_r. exists b. rewrite <- !app_assoc. cbn. reflexivity.
  - rewrite app_assoc, latest_snoc, Nat.eqb_refl. assumption.
Qed.

Lemma no_double_close h : panicked (run h) = false.
Proof. apply (Inv_run h). Qed.

Lemma get_latest h u :
  get (run h) u = match latest (pubs h) u with Some v => v | None => 0%Z end.
Proof. unfold get. pose proof (Inv_run h) as [Iver _ _ _ _ _ _ _ _]. now rewrite Iver. Qed.

(** Cancelling never turns into success, and an entered wait that returned an
    error was cancelled. *)
Lemma err_means_cancelled h w : returned_err (run h) w -> In (OCancel w) h.
Proof.
  unfold returned_err, run. induction h as [|o h IH] using rev_ind; cbn; [discriminate|].
  rewrite fold_left_snoc. set (s := fold_left step h init) in *.
  intros H. apply in_or_app.
  destruct o as [w' u v|w'|w'|mods]; cbn [step] in H.
  - left. apply IH. unfold enter in H. destruct (wait s w') eqn:Ew; auto.
    destruct (immediate _ _); [|destruct (qfind _ _ _)]; cbn in H;
      unfold upd in H; destruct (Nat.eqb w w'); congruence.
  - left. apply IH. unfold recv in H. destruct (wait s w') eqn:Ew; auto.
    destruct (closed s c); auto. cbn in H. unfold upd in H.
    destruct (Nat.eqb w w'); congruence.
  - unfold cancel in H. destruct (wait s w') eqn:Ew; auto.
    cbn in H. unfold upd in H. destruct (Nat.eqb_spec w w') as [->|].
    + right. now left.
    + left. now apply IH.
  - left. apply IH. rewrite <- H. clear.
    generalize s. unfold update. induction mods as [|m mods IH]; intros s'; [reflexivity|].
    cbn. rewrite <- IH. unfold update1. now destruct (fold_left close1 _ _).
Qed.
