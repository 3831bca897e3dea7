From Coq Require Import Ascii String.
From Verif Require Import Base Strs.
From Verif.CodeActions Require Import Model Spec.
Open Scope list_scope.

(** ** kinds *)
Lemma includes_iff o k : (o = k \/ exists r, k = (o ++ [dot]) ++ r) <-> includes o k.
Proof.
  unfold includes. change "."%char with dot. split.
  - intros [->|[r ->]]; [exists []; now rewrite app_nil_r|].
    assert (G : forall s, split_on dot (s ++ dot :: r) = split_on dot s ++ split_on dot r).
    { induction s as [|x s IH]; [reflexivity|]. cbn [app split_on]. destruct (Ascii.eqb x dot).
      - rewrite IH. reflexivity.
      - rewrite IH. pose proof (split_on_nonempty dot s). destruct (split_on dot s) as [|w ws]; [congruence|]. reflexivity. }
    exists (split_on dot r). rewrite <- app_assoc. apply G.
  - intros [rest H]. rewrite <- (join_split dot k), H. rewrite <- (join_split dot o) at 1.
    destruct rest as [|w ws]; [left; now rewrite app_nil_r|]. right. exists (join_with dot (w :: ws)).
    rewrite <- (join_split dot o) at 2. pose proof (split_on_nonempty dot o) as NE. generalize dependent (split_on dot o).
    intros l _ NE. induction l as [|v l IH]; [congruence|]. destruct l as [|v' l].
    + cbn [app join_with]. now rewrite <- app_assoc.
    + change ((v :: v' :: l) ++ w :: ws) with (v :: v' :: (l ++ w :: ws)). cbn [join_with].
      change (match l ++ w :: ws with [] => v' | _ :: _ => v' ++ dot :: join_with dot (l ++ w :: ws) end) with (join_with dot ((v' :: l) ++ w :: ws)).
      change (match l with [] => v' | _ :: _ => v' ++ dot :: join_with dot l end) with (join_with dot (v' :: l)).
      rewrite IH by discriminate. repeat (rewrite <- !app_assoc; cbn [app]). reflexivity.
Qed.

Definition matches (o k : bytes) : bool := (beq o k || has_prefix k (o ++ [dot]))%bool.
Lemma matches_iff o k : matches o k = true <-> includes o k.
Proof. unfold matches. rewrite orb_true_iff, beq_eq, has_prefix_spec. apply includes_iff. Qed.

Lemma kget_set m k v k' : kget (kset m k v) k' = if beq k' k then v else kget m k'.
Proof. reflexivity. Qed.

Lemma add_supported_get o ks : forall m k,
  kget (add_supported o ks m) k = true <-> (kget m k = true \/ (In k ks /\ matches o k = true)).
Proof.
  induction ks as [|k0 ks IH]; intros m k; cbn [add_supported In].
  - split; [auto|intros [H|[[] _]]; exact H].
  - rewrite IH. fold (matches o k0). destruct (matches o k0) eqn:M.
    + rewrite kget_set, orb_true_r. destruct (beq k k0) eqn:B.
      * apply beq_eq in B as ->. tauto.
      * apply beq_neq in B. split; [tauto|]. intros [H|[[H|H] H']]; auto; congruence.
    + split; [tauto|]. intros [H|[[H|H] H']]; auto; congruence.
Qed.

Lemma add_all_get os : forall m k,
  kget (add_all os m) k = true <->
  (kget m k = true \/ (In k supported /\ exists o, In o os /\ matches o k = true) \/ (In k os /\ explicit_kind k = true)).
Proof.
  induction os as [|o os IH]; intros m k; cbn [add_all In].
  - split; [auto|]. intros [H|[[_ (o & [] & _)]|[[] _]]]; exact H.
  - rewrite IH, kget_set. destruct (beq k o) eqn:B.
    + apply beq_eq in B as ->. rewrite orb_true_iff, add_supported_get. split.
      * intros [[[H|[H1 H2]]|H]|[[H (o' & H1 & H2)]|[H1 H2]]].
        -- now left.
        -- right. left. split; [exact H1|]. exists o. auto.
        -- right. right. auto.
        -- right. left. split; [exact H|]. exists o'. auto.
        -- right. right. auto.
      * intros [H|[[H (o' & [<-|H1] & H2)]|[_ H2]]].
        -- left. left. now left.
        -- left. left. now right.
        -- right. left. split; [exact H|]. exists o'. auto.
        -- left. now right.
    + apply beq_neq in B. rewrite add_supported_get. split.
      * intros [[H|[H1 H2]]|[[H (o' & H1 & H2)]|[H1 H2]]]; eauto 10.
      * intros [H|[[H (o' & [<-|H1] & H2)]|[[H1|H1] H2]]]; eauto 10; congruence.
Qed.

Lemma add_all_nonempty os : forall m, os <> [] -> add_all os m <> [].
Proof.
  assert (G : forall os m, m <> [] -> add_all os m <> []).
  { clear. induction os as [|o os IH]; intros m H; [exact H|]. cbn [add_all]. apply IH. discriminate. }
  intros m H. destruct os as [|o os]; [congruence|]. cbn [add_all]. apply G. discriminate.
Qed.

Lemma kinds_supported : kinds = supported. Proof. reflexivity. Qed.
Lemma explicit_spec k : explicit_kind k = true <-> k = only_on_request. Proof. apply beq_eq. Qed.
Lemma requested_spec only : exists want, requested only = Some want /\ forall k, kget want k = true <-> wanted only k.
Proof.
  destruct only as [|o os].
  - eexists. split; [reflexivity|]. intros k. unfold wanted, requested.
    assert (G : forall ks, kget (map (fun k => (k, true)) ks) k = true <-> In k ks).
    { induction ks as [|x ks IH]; cbn; [split; [discriminate|tauto]|]. destruct (beq k x) eqn:B.
      - apply beq_eq in B. split; auto.
      - apply beq_neq in B. rewrite IH. split; [auto|]. intros [->|H]; [congruence|auto]. }
    rewrite kinds_supported. apply G.
  - exists (add_all (o :: os) []). split.
    + unfold requested. pose proof (add_all_nonempty (o :: os) [] ltac:(discriminate)) as NE.
      destruct (add_all (o :: os) []) eqn:EA; [elim NE; reflexivity|reflexivity].
    + intros k. rewrite add_all_get. unfold wanted. rewrite kinds_supported, <- explicit_spec. cbn [kget]. split.
      * intros [H|[[H (o' & H1 & H2)]|H]]; [discriminate| |auto]. left. split; [exact H|]. exists o'. now rewrite <- matches_iff.
      * intros [[H (o' & H1 & H2)]|H]; [|auto]. right. left. split; [exact H|]. exists o'. now rewrite matches_iff.
Qed.

(** ** collected kinds *)
Lemma to_protocol_kinds want rs a : In a (to_protocol want rs) -> kget want (kind a) = true.
Proof.
  induction rs as [|r rs IH]; cbn; [tauto|]. destruct (ruri r); [|exact IH].
  destruct (kget want (rkind r)) eqn:W; [|exact IH]. intros [<-|H]; [exact W|auto].
Qed.
Lemma undeclared_kind_wanted want k : undeclared_kind want = Some k -> kget want k = true.
Proof.
  unfold undeclared_kind. destruct (kget want quickfix) eqn:Q; [intros [= <-]; exact Q|].
  destruct (kget want organize) eqn:O; [intros [= <-]; exact O|].
  destruct (kget want fix_all) eqn:F; [intros [= <-]; exact F|]. discriminate.
Qed.
Lemma undeclared_kinds sg want n a : In a (undeclared_actions sg want n) -> kget want (kind a) = true.
Proof.
  unfold undeclared_actions. destruct (undeclared_kind want) as [k|] eqn:K; [|intros []]. apply undeclared_kind_wanted in K.
  destruct (negb _ && beq k organize); [intros []|]. rewrite in_map_iff. intros (s & <- & _). exact K.
Qed.
Lemma collect_kinds sg want ds acts a : collect sg want ds = Some acts -> In a acts -> kget want (kind a) = true.
Proof.
  revert acts. induction ds as [|d ds IH]; intros acts E HI; cbn in E.
  - injection E as <-. destruct HI.
  - destruct d as [| |rs u]; [eauto|discriminate|]. destruct (collect sg want ds) as [rest|]; [|discriminate].
    injection E as <-. rewrite !in_app_iff in HI. destruct HI as [H|[H|H]].
    + eapply to_protocol_kinds; eauto.
    + destruct u; [|destruct H]. eapply undeclared_kinds; eauto.
    + eauto.
Qed.
Lemma refactor_kinds an want a : In a (refactor_actions an want) -> kget want (kind a) = true.
Proof.
  unfold refactor_actions. rewrite in_flat_map. intros (k & _ & H). destruct (kget want k) eqn:W; [|destruct H].
  rewrite in_map_iff in H. destruct H as (s & <- & _). exact W.
Qed.

(** ** merging *)
Lemma cget_add c u e u' : cget (cadd c u e) u' = if u' =? u then cget c u' ++ [e] else cget c u'.
Proof.
  induction c as [|[v es] c IH]; cbn [cadd cget].
  - destruct (Nat.eqb_spec u' u); reflexivity.
  - destruct (Nat.eqb_spec u v) as [->|N]; cbn [cget].
    + destruct (Nat.eqb_spec u' v); reflexivity.
    + rewrite IH. destruct (Nat.eqb_spec u' v) as [->|]; [|reflexivity].
      destruct (Nat.eqb_spec v u); [congruence|reflexivity].
Qed.
Lemma cadd_nonempty c u e : cadd c u e <> []. Proof. destruct c as [|[v es] c]; cbn; [discriminate|]. destruct (u =? v); discriminate. Qed.

(** the flat view: a sequence of (document, edit) *)
Definition flat (acts : list action) : list (nat * edit) :=
  flat_map (fun a => if beq (kind a) organize then flat_map (fun c => map (pair (fst c)) (snd c)) (chg a) else []) acts.
Definition add1 (s : list bytes * changes) (ue : nat * edit) : list bytes * changes :=
  match etext (snd ue) with
  | [] => (fst s, cadd (snd s) (fst ue) (snd ue))
  | _ => if mem (etext (snd ue)) (fst s) then s else (etext (snd ue) :: fst s, cadd (snd s) (fst ue) (snd ue))
  end.
Lemma merge_edits_flat u es : forall seen c,
  merge_edits u es seen c = fold_left add1 (map (pair u) es) (seen, c).
Proof.
  induction es as [|e es IH]; intros seen c; [reflexivity|]. cbn [merge_edits map fold_left].
  unfold add1 at 2. cbn [fst snd]. destruct (etext e); [apply IH|]. destruct (mem _ seen); apply IH.
Qed.
Lemma merge_changes_flat cs : forall seen c,
  merge_changes cs seen c = fold_left add1 (flat_map (fun c => map (pair (fst c)) (snd c)) cs) (seen, c).
Proof.
  induction cs as [|[u es] cs IH]; intros seen c; [reflexivity|]. cbn [merge_changes flat_map fst snd].
  rewrite fold_left_app, merge_edits_flat. destruct (fold_left add1 (map (pair u) es) (seen, c)). apply IH.
Qed.
Lemma aggregate_loop_flat acts : forall f seen c,
  aggregate_loop acts f seen c =
  (f ++ filter (fun a => negb (beq (kind a) organize)) acts, snd (fold_left add1 (flat acts) (seen, c))).
Proof.
  induction acts as [|a acts IH]; intros f seen c; cbn [aggregate_loop flat flat_map filter].
  - now rewrite app_nil_r.
  - destruct (beq (kind a) organize); cbn [negb].
    + rewrite fold_left_app, <- merge_changes_flat. destruct (merge_changes (chg a) seen c) as [s' c']. apply IH.
    + rewrite IH. cbn [app]. now rewrite <- app_assoc.
Qed.

(** what a document ends up with *)
Lemma add1_get l : forall seen c u,
  exists kept, cget (snd (fold_left add1 l (seen, c))) u = cget c u ++ kept /\
    (forall e, In e kept -> In (u, e) l) /\
    deletions kept = deletions (map snd (filter (fun p => u =? fst p) l)).
Proof.
  induction l as [|[v e] l IH]; intros seen c u.
  - exists []. cbn. rewrite app_nil_r. split; [reflexivity|]. split; [intros ? []|reflexivity].
  - cbn [fold_left]. unfold add1 at 2. cbn [fst snd].
    set (s1 := match etext e with [] => _ | _ => _ end).
    assert (H1 : exists k1, cget (snd s1) u = cget c u ++ k1 /\ (forall x, In x k1 -> (v, e) = (u, x)) /\
                 deletions k1 = deletions (map snd (filter (fun p => u =? fst p) [(v, e)]))).
    { unfold s1. cbn [filter fst].
      destruct (etext e) eqn:T; cbn [fst snd].
      - rewrite cget_add. destruct (Nat.eqb_spec u v) as [->|].
        + exists [e]. split; [reflexivity|]. split; [intros x [<-|[]]; reflexivity|]. cbn. now rewrite T.
        + exists []. rewrite app_nil_r. now split; [|split; [intros ? []|]].
      - destruct (mem _ seen); cbn [fst snd].
        + exists []. rewrite app_nil_r. split; [reflexivity|]. split; [intros ? []|].
          destruct (u =? v); cbn; [now rewrite T|reflexivity].
        + rewrite cget_add. destruct (Nat.eqb_spec u v) as [->|].
          * exists [e]. split; [reflexivity|]. split; [intros x [<-|[]]; reflexivity|]. cbn. now rewrite T.
          * exists []. rewrite app_nil_r. now split; [|split; [intros ? []|]]. }
    destruct H1 as (k1 & G1 & S1 & D1). destruct s1 as [seen1 c1]. cbn [snd] in G1.
    destruct (IH seen1 c1 u) as (k2 & G2 & S2 & D2).
    exists (k1 ++ k2). split; [now rewrite G2, G1, app_assoc|]. split.
    + intros x HX. apply in_app_or in HX as [HX|HX]; [left; now apply S1|right; auto].
    + unfold deletions in *. rewrite filter_app, D1, D2. cbn [filter fst].
      destruct (u =? v); cbn [map filter snd app]; [destruct (etext e)|]; reflexivity.
Qed.

(** one document: the first edit of every text *)
Lemma mem_existsb x l : mem x l = existsb (beq x) l. Proof. reflexivity. Qed.
Lemma add1_first u l : forall seen c, (forall p, In p l -> fst p = u) ->
  insertions (cget (snd (fold_left add1 l (seen, c))) u) =
  insertions (cget c u) ++ first_texts seen (insertions (map snd l)).
Proof.
  induction l as [|[v e] l IH]; intros seen c HU.
  - cbn. now rewrite app_nil_r.
  - assert (v = u) as -> by (apply (HU (v, e)); now left).
    assert (HU' : forall p, In p l -> fst p = u) by (intros p HP; apply HU; now right).
    cbn [fold_left map snd]. unfold add1 at 2. cbn [fst snd].
    unfold insertions at 3. cbn [filter]. destruct (etext e) as [|x t] eqn:T.
    + rewrite (IH _ _ HU'). rewrite cget_add, Nat.eqb_refl. unfold insertions at 1. rewrite filter_app. cbn. rewrite T. now rewrite app_nil_r.
    + cbn [first_texts]. rewrite T, <- mem_existsb. destruct (mem (x :: t) seen) eqn:M.
      * exact (IH seen c HU').
      * rewrite (IH _ _ HU'), cget_add, Nat.eqb_refl. unfold insertions at 1. rewrite filter_app. cbn [filter]. rewrite T.
        now rewrite <- app_assoc.
Qed.

Lemma flat_doc u acts : map snd (filter (fun p => u =? fst p) (flat acts)) = organize_edits u acts.
Proof.
  unfold flat, organize_edits. induction acts as [|a acts IH]; [reflexivity|]. cbn [flat_map].
  rewrite filter_app, map_app, IH. f_equal. destruct (beq (kind a) organize); [|reflexivity].
  induction (chg a) as [|[v es] cs IHc]; [reflexivity|]. cbn [flat_map fst snd]. rewrite filter_app, map_app, IHc. f_equal.
  induction es as [|e es IHe]; cbn; [now destruct (u =? v)|]. destruct (u =? v); cbn; [now rewrite IHe|assumption].
Qed.
Lemma flat_in u e acts : In (u, e) (flat acts) -> In e (organize_edits u acts).
Proof. intros H. rewrite <- flat_doc. apply in_map_iff. exists (u, e). split; [reflexivity|]. apply filter_In. cbn. now rewrite Nat.eqb_refl. Qed.

Lemma first_texts_in seen es e : In e es -> existsb (beq (etext e)) seen = true \/
  exists e', In e' (first_texts seen es) /\ etext e' = etext e.
Proof.
  revert seen. induction es as [|x es IH]; intros seen; [intros []|]. intros [->|H]; cbn [first_texts].
  - destruct (existsb (beq (etext e)) seen) eqn:E; [auto|]. right. exists e. split; [now left|reflexivity].
  - destruct (existsb (beq (etext x)) seen) eqn:E; [apply IH; exact H|].
    destruct (IH (etext x :: seen) H) as [D|(e' & H1 & H2)].
    + cbn in D. apply orb_prop in D as [D|D]; [|auto]. apply beq_eq in D. right. exists x. split; [now left|auto].
    + right. exists e'. split; [now right|exact H2].
Qed.

(** ** deferred actions *)
Lemma mem_id_In x l : mem_id x l = true <-> In x l.
Proof. unfold mem_id. rewrite existsb_exists. split; [intros (y & H & E); apply Nat.eqb_eq in E; now subst|intros H; exists x; now rewrite Nat.eqb_refl]. Qed.
Lemma remove_id_In x y l : In y (remove_id x l) <-> In y l /\ y <> x.
Proof. unfold remove_id. rewrite filter_In, negb_true_iff, Nat.eqb_neq. reflexivity. Qed.

(** A stored action has not been executed; ids are below [next]; stored and
    prepared are disjoint. *)
Definition QInv (q : queue) : Prop :=
  (forall i, In i (stored q) -> count i (executed q) = 0) /\
  (forall i, In i (prepared q) -> count i (executed q) = 0 /\ ~ In i (stored q)) /\
  (forall i, count i (executed q) <= 1) /\
  (forall i, (In i (stored q) \/ In i (prepared q) \/ count i (executed q) <> 0) -> i < next q) /\
  (forall i, next q <= i -> timers q i = None).

Lemma qinv_init : QInv qinit.
Proof. unfold QInv; cbn. split; [intros ? []|]. split; [intros ? []|]. split; [auto|]. split; [intros i [[]|[[]|[]]]; reflexivity|reflexivity]. Qed.

Lemma qinv_step e q q' : QInv q -> qstep e q = Some q' -> QInv q'.
Proof.
  destruct q as [n st t p ex f]. unfold QInv. cbn [stored prepared executed next timers].
  intros (I1 & I2 & I3 & I4 & I5) E. destruct e as [|id|id|id|[id|]]; cbn in E.
  - injection E as <-. cbn [stored prepared executed next timers]. split; [exact I1|]. split; [|split; [exact I3|split]].
    + intros i [<-|H]; [|now apply I2]. split.
      * destruct (Nat.eq_dec (count n ex) 0) as [Z|Z]; [exact Z|]. specialize (I4 n (or_intror (or_intror Z))). lia.
      * intros HS. specialize (I4 n (or_introl HS)). lia.
    + intros i H. destruct (Nat.eq_dec i n) as [->|N]; [lia|]. assert (i < n); [|lia]. apply I4. cbn in H. intuition congruence.
    + intros i H. rewrite upd_other by lia. apply I5. lia.
  - destruct (mem_id id p) eqn:M; [|discriminate]. apply mem_id_In in M. injection E as <-.
    cbn [stored prepared executed next timers]. split; [|split; [|split; [exact I3|split; [|exact I5]]]].
    + intros i [<-|H]; [now apply I2|auto].
    + intros i H. apply remove_id_In in H as [H NE]. destruct (I2 i H) as [J1 J2]. split; [exact J1|]. intros [->|HS]; auto.
    + intros i [[<-|H]|[H|H]]; [apply I4; auto..| |apply I4; auto]. apply remove_id_In in H as [H _]. apply I4; auto.
  - destruct (t id) as [[]|] eqn:T; try discriminate. injection E as <-. cbn [stored prepared executed next timers].
    split; [exact I1|]. split; [exact I2|]. split; [exact I3|]. split; [exact I4|].
    intros i H. rewrite upd_other; [now apply I5|]. intros ->. rewrite I5 in T by assumption. discriminate.
  - destruct (t id) as [[]|] eqn:T; try discriminate. injection E as <-. cbn [stored prepared executed next timers].
    split; [|split; [|split; [exact I3|split]]].
    + intros i H. apply remove_id_In in H as [H _]. auto.
    + intros i H. destruct (I2 i H) as [J1 J2]. split; [exact J1|]. rewrite remove_id_In. tauto.
    + intros i [H|H]; [apply remove_id_In in H as [H _]|]; apply I4; auto.
    + intros i H. rewrite upd_other; [now apply I5|]. intros ->. rewrite I5 in T by assumption. discriminate.
  - destruct (mem_id id st) eqn:M.
    + apply mem_id_In in M. injection E as <-. cbn [stored prepared executed next timers count].
      split; [|split; [|split; [|split]]].
      * intros i H. apply remove_id_In in H as [H NE]. destruct (Nat.eqb_spec id i); [congruence|]. now apply I1.
      * intros i H. destruct (I2 i H) as [J1 J2]. destruct (Nat.eqb_spec id i) as [->|]; [contradiction|]. split; [exact J1|].
        rewrite remove_id_In. tauto.
      * intros i. destruct (Nat.eqb_spec id i) as [->|]; [rewrite (I1 i M); lia|apply I3].
      * intros i [H|[H|H]]; [apply remove_id_In in H as [H _]; apply I4; auto|apply I4; auto|].
        destruct (Nat.eqb_spec id i) as [->|]; apply I4; auto.
      * intros i H. destruct (t id) as [[]|] eqn:T; auto. rewrite upd_other; [now apply I5|].
        intros ->. rewrite I5 in T by assumption. discriminate.
    + injection E as <-. cbn. auto.
  - injection E as <-. cbn. auto.
Qed.
Lemma qinv_run es q q' : QInv q -> qrun es q = Some q' -> QInv q'.
Proof.
  revert q. induction es as [|e es IH]; intros q I E; cbn in E; [now injection E as <-|].
  destruct (qstep e q) eqn:S; [|discriminate]. eapply IH; [|eassumption]. eapply qinv_step; eauto.
Qed.
Lemma qrun_app a b q : qrun (a ++ b) q = match qrun a q with Some q' => qrun b q' | None => None end.
Proof. revert q. induction a as [|e a IH]; intros q; cbn; [reflexivity|]. destruct (qstep e q); [apply IH|reflexivity]. Qed.

Lemma available_stored es : forall q q' id, qrun es q = Some q' ->
  mem_id id (stored q') = available_from id es (mem_id id (stored q)).
Proof.
  induction es as [|e es IH]; intros q q' id E; cbn in E; [injection E as <-; reflexivity|].
  destruct (qstep e q) as [q1|] eqn:S; [|discriminate]. rewrite (IH _ _ id E). clear IH E.
  destruct q as [n st t p ex f]. cbn [stored].
  assert (R : forall i, mem_id id (remove_id i st) = (mem_id id st && negb (i =? id))%bool).
  { intros i. apply eq_true_iff_eq. rewrite andb_true_iff, !mem_id_In, remove_id_In, negb_true_iff, Nat.eqb_neq. intuition congruence. }
  destruct e as [|i|i|i|[i|]]; cbn in S; cbn [available_from].
  - now injection S as <-.
  - destruct (mem_id i p); [|discriminate]. injection S as <-. cbn [stored]. f_equal. cbn. rewrite (Nat.eqb_sym id i). apply orb_comm.
  - destruct (t i) as [[]|]; try discriminate. now injection S as <-.
  - destruct (t i) as [[]|]; try discriminate. injection S as <-. cbn [stored]. now rewrite R.
  - destruct (mem_id i st) eqn:M; injection S as <-; cbn [stored]; [now rewrite R|].
    destruct (Nat.eqb_spec i id) as [->|]; cbn; [now rewrite M|now rewrite andb_true_r].
  - now injection S as <-.
Qed.

Definition gone (id : nat) (q : queue) : Prop := ~ In id (stored q) /\ ~ In id (prepared q) /\ id < next q.
Lemma gone_step id e q q' : gone id q -> qstep e q = Some q' -> gone id q' /\ count id (executed q') = count id (executed q).
Proof.
  destruct q as [n st t p ex f]. unfold gone. cbn [stored prepared next executed]. intros (G1 & G2 & G3) E.
  destruct e as [|i|i|i|[i|]]; cbn in E.
  - injection E as <-. cbn. repeat split; auto. intros [H|H]; [lia|auto].
  - destruct (mem_id i p) eqn:M; [|discriminate]. apply mem_id_In in M. injection E as <-. cbn. repeat split; auto.
    + intros [->|H]; auto.
    + rewrite remove_id_In. tauto.
  - destruct (t i) as [[]|]; try discriminate. injection E as <-. cbn. auto.
  - destruct (t i) as [[]|]; try discriminate. injection E as <-. cbn. rewrite remove_id_In. repeat split; auto. tauto.
  - destruct (mem_id i st) eqn:M.
    + apply mem_id_In in M. injection E as <-. cbn. rewrite remove_id_In. destruct (Nat.eqb_spec i id) as [->|]; [tauto|]. tauto.
    + injection E as <-. cbn. auto.
  - injection E as <-. cbn. auto.
Qed.
Lemma gone_run id es : forall q q', gone id q -> qrun es q = Some q' -> gone id q' /\ count id (executed q') = count id (executed q).
Proof.
  induction es as [|e es IH]; intros q q' G E; cbn in E; [injection E as <-; auto|].
  destruct (qstep e q) as [q1|] eqn:S; [|discriminate]. destruct (gone_step _ _ _ _ G S) as [G1 C1].
  destruct (IH _ _ G1 E) as [G2 C2]. split; [exact G2|congruence].
Qed.

(** once stored, an id is never prepared again *)
Lemma stored_settled es q id : qrun es qinit = Some q -> In (QStore id) es -> ~ In id (prepared q) /\ id < next q.
Proof.
  intros R HI. apply in_split in HI as (a & b & ->). rewrite qrun_app in R. cbn [qrun] in R.
  destruct (qrun a qinit) as [q1|] eqn:RA; [|discriminate].
  destruct (qstep (QStore id) q1) as [q2|] eqn:S; [|discriminate].
  assert (I1 := qinv_run _ _ _ qinv_init RA).
  assert (P : ~ In id (prepared q2) /\ id < next q2).
  { destruct q1 as [n st t p ex f]. cbn in S. destruct (mem_id id p) eqn:M; [|discriminate]. apply mem_id_In in M. injection S as <-. cbn.
    split; [rewrite remove_id_In; tauto|]. destruct I1 as (_ & _ & _ & I4 & _). apply I4. cbn. auto. }
  clear -P R. revert q2 P R. induction b as [|e b IH]; intros q2 P R; cbn in R; [injection R as <-; exact P|].
  destruct (qstep e q2) as [q3|] eqn:S; [|discriminate]. apply (IH q3); [|exact R]. clear IH R.
  destruct q2 as [n st t p ex f]. cbn in P. destruct P as [P1 P2].
  destruct e as [|i|i|i|[i|]]; cbn in S;
    repeat match type of S with context [match ?x with _ => _ end] => destruct x; try discriminate end;
    injection S as <-; cbn; try (split; [|lia]); auto.
  - intros [H|H]; [lia|auto].
  - rewrite remove_id_In. tauto.
Qed.

(** with prompt storing every stored action still has a timer *)
Definition TInv (q : queue) : Prop :=
  (forall i, In i (stored q) -> timers q i = Some Running \/ timers q i = Some Expired) /\
  (forall i, In i (prepared q) -> timers q i = Some Running).
Lemma tinv_run es : forall q, qrun es qinit = Some q -> prompt es -> TInv q.
Proof.
  induction es as [|e es IH] using rev_ind; intros q R P.
  - cbn in R. injection R as <-. split; intros i [].
  - rewrite qrun_app in R. destruct (qrun es qinit) as [q1|] eqn:R1; [|discriminate]. cbn [qrun] in R.
    destruct (qstep e q1) as [q2|] eqn:S; [|discriminate]. injection R as <-.
    assert (P1 : prompt es). { intros a b id ->. apply (P a (b ++ [e]) id). now rewrite <- app_assoc. }
    destruct (IH q1 eq_refl P1) as [T1 T2]. clear IH.
    assert (I1 := qinv_run _ _ _ qinv_init R1).
    assert (EXP : forall id, e = QExpire id -> ~ In id (prepared q1)).
    { intros id ->. apply (stored_settled es); [exact R1|]. apply (P es [] id). reflexivity. }
    destruct q1 as [n st t p ex f]. unfold TInv in *. cbn [stored timers prepared] in *.
    destruct I1 as (_ & I2 & _ & I4 & _). cbn in I2, I4.
    destruct e as [|i|i|i|[i|]]; cbn in S.
    + injection S as <-. cbn. split.
      * intros i H. rewrite upd_other; [auto|]. specialize (I4 i (or_introl H)). lia.
      * intros i [<-|H]; [now rewrite upd_same|]. rewrite upd_other; [auto|]. specialize (I4 i (or_intror (or_introl H))). lia.
    + destruct (mem_id i p) eqn:M; [|discriminate]. apply mem_id_In in M. injection S as <-. cbn. split.
      * intros j [<-|H]; auto.
      * intros j H. apply remove_id_In in H as [H _]. auto.
    + destruct (t i) as [[]|] eqn:T; try discriminate. injection S as <-. cbn. specialize (EXP i eq_refl). split.
      * intros j H. destruct (Nat.eq_dec j i) as [->|N]; [rewrite upd_same; auto|rewrite upd_other by assumption; auto].
      * intros j H. rewrite upd_other; [auto|]. congruence.
    + destruct (t i) as [[]|] eqn:T; try discriminate. injection S as <-. cbn. split.
      * intros j H. apply remove_id_In in H as [H N]. rewrite upd_other by assumption. auto.
      * intros j H. rewrite upd_other; [auto|]. intros ->. rewrite T2 in T by assumption. discriminate.
    + destruct (mem_id i st) eqn:M.
      * apply mem_id_In in M. injection S as <-. cbn. split.
        -- intros j H. apply remove_id_In in H as [H N]. destruct (t i) as [[]|] eqn:T; auto. rewrite upd_other by assumption. auto.
        -- intros j H. destruct (t i) as [[]|] eqn:T; auto. rewrite upd_other; [auto|]. intros ->. now apply (I2 i H).
      * injection S as <-. cbn. auto.
    + injection S as <-. cbn. auto.
Qed.

Lemma filter_idem {A} (f : A -> bool) l : filter f (filter f l) = filter f l.
Proof. induction l as [|x l IH]; [reflexivity|]. cbn. destruct (f x) eqn:E; [|exact IH]. cbn. now rewrite E, IH. Qed.

Definition merged (acts : list action) : changes := snd (fold_left add1 (flat acts) ([], [])).
Definition others (acts : list action) : list action := filter (fun a => negb (beq (kind a) organize)) acts.
Lemma aggregate_eq acts : aggregate acts =
  match merged acts with [] => others acts | _ => others acts ++ [mkAction organize organize_title (merged acts)] end.
Proof. unfold aggregate. rewrite aggregate_loop_flat. reflexivity. Qed.
Lemma aggregate_cases acts : aggregate acts = others acts /\ merged acts = [] \/
  exists t, aggregate acts = others acts ++ [mkAction organize t (merged acts)].
Proof. rewrite aggregate_eq. destruct (merged acts); eauto. Qed.
Lemma merged_sound acts u e : In e (cget (merged acts) u) -> In e (organize_edits u acts).
Proof. destruct (add1_get (flat acts) [] [] u) as (k & G & S & _). intros HI. unfold merged in HI. rewrite G in HI. apply flat_in, S, HI. Qed.
Lemma merged_deletions acts u : deletions (cget (merged acts) u) = deletions (organize_edits u acts).
Proof. destruct (add1_get (flat acts) [] [] u) as (k & G & _ & D). unfold merged. rewrite G. cbn [cget app]. now rewrite D, flat_doc. Qed.
