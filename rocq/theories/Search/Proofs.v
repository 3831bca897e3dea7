From Coq Require Import Permutation.
From Verif Require Import Base.
From Verif.Search Require Import Model Spec.
Open Scope list_scope.

(** ** Tokens *)

Lemma lookup_sound ts l c t :
  lookup ts l c = Some t -> In t ts /\ meaningful t /\ touches l c t.
Proof.
  induction ts as [|u ts IH]; cbn [lookup]; [discriminate|].
  assert (K : lookup ts l c = Some t -> In t (u :: ts) /\ meaningful t /\ touches l c t)
    by (intros H; destruct (IH H) as [I R]; split; [now right | exact R]).
  destruct (proto u) eqn:P; cbn [negb]; [|exact K].
  destruct (Nat.eqb_spec l (line u)) as [El|]; cbn [negb];
    [|destruct (l <? line u); [discriminate | exact K]].
  destruct (Nat.eqb_spec (len u) 0) as [|Nl]; [exact K|].
  destruct (Nat.ltb_spec (start u + len u) c) as [|G1]; [exact K|].
  destruct (Nat.ltb_spec c (start u)) as [|G2]; [discriminate|].
  destruct (node u) eqn:En; try exact K.
  intros H; injection H as <-. split; [now left|]. split.
  - split; [exact P | now exists id].
  - unfold touches. lia.
Qed.

Lemma lookup_first ts l c t :
  lookup ts l c = Some t ->
  exists a b, ts = a ++ t :: b /\ forall u, In u a -> meaningful u -> ~ touches l c u.
Proof.
  induction ts as [|u ts IH]; cbn [lookup]; [discriminate|].
  assert (K : (meaningful u -> ~ touches l c u) -> lookup ts l c = Some t ->
              exists a b, u :: ts = a ++ t :: b /\ forall v, In v a -> meaningful v -> ~ touches l c v).
  { intros N H. destruct (IH H) as (a & b & E & F). exists (u :: a), b. split; [now rewrite E|].
    intros v [<-|I]; [exact N | now apply F]. }
  destruct (proto u) eqn:P; cbn [negb]; [|apply K; intros [Q _]; congruence].
  destruct (Nat.eqb_spec l (line u)) as [El|]; cbn [negb];
    [|destruct (l <? line u); [discriminate | apply K; unfold touches; intros _; lia]].
  destruct (Nat.eqb_spec (len u) 0) as [|Nl]; [apply K; unfold touches; intros _; lia|].
  destruct (Nat.ltb_spec (start u + len u) c) as [|G1]; [apply K; unfold touches; intros _; lia|].
  destruct (Nat.ltb_spec c (start u)) as [|G2]; [discriminate|].
  destruct (node u) eqn:En.
  - apply K. intros [_ [n Q]]. congruence.
  - apply K. intros [_ [n Q]]. congruence.
  - intros H; injection H as <-. exists [], ts. split; [reflexivity | intros v []].
Qed.

Lemma lookup_complete ts l c t :
  ordered ts -> In t ts -> meaningful t -> touches l c t -> exists u, lookup ts l c = Some u.
Proof.
  induction 1 as [|u ts B O IH]; cbn [lookup]; [intros []|].
  intros [->|I] M T.
  - destruct M as [P [n En]]. destruct T as (L & Z & S). rewrite P. cbn [negb].
    rewrite <- L, Nat.eqb_refl. cbn [negb].
    destruct (Nat.eqb_spec (len t) 0); [lia|].
    destruct (Nat.ltb_spec (start t + len t) c); [lia|].
    destruct (Nat.ltb_spec c (start t)); [lia|].
    rewrite En. now exists t.
  - specialize (IH I M T). specialize (B t I). destruct T as (L & Z & S).
    destruct (proto u); cbn [negb]; [|exact IH].
    destruct (Nat.eqb_spec l (line u)) as [El|N]; cbn [negb].
    + destruct (len u =? 0); [exact IH|].
      destruct (start u + len u <? c); [exact IH|].
      destruct (Nat.ltb_spec c (start u)) as [G|G].
      * exfalso. destruct B as [B|[_ B]]; lia.
      * destruct (node u); try exact IH. now exists u.
    + destruct (Nat.ltb_spec l (line u)) as [G|G]; [|exact IH].
      exfalso. destruct B as [B|[B _]]; lia.
Qed.

Lemma ordered_app_tail a b : ordered (a ++ b) -> ordered b.
Proof. induction a; cbn; [auto|]. intros O. inversion O; subst. auto. Qed.

Lemma ordered_before a t b u : ordered (a ++ t :: b) -> In u a -> before u t.
Proof.
  induction a as [|x a IH]; cbn; [intros _ []|]. intros O [->|I]; inversion O as [|? ? B O']; subst.
  - apply B. apply in_or_app. right. now left.
  - now apply IH.
Qed.

Lemma disjoint_before a t b u : disjoint (a ++ t :: b) -> In u a -> apart u t.
Proof.
  induction a as [|x a IH]; cbn; [intros _ []|]. intros O [->|I]; inversion O as [|? ? B O']; subst.
  - apply B. apply in_or_app. right. now left.
  - now apply IH.
Qed.

Lemma disjoint_pair ts t u :
  disjoint ts -> In t ts -> In u ts -> t = u \/ apart t u \/ apart u t.
Proof.
  induction 1 as [|x ts B O IH]; [intros []|].
  intros [->|I] [->|J]; auto.
Qed.

(** ** References *)

Section Refs.
  Context {ref : Type}.
  Variable key : ref -> nat.
  Notation step := (step key).
  Notation run := (run key).

  Lemma set_nth_split (ws : list (worker ref)) i w :
    nth_error ws i = Some w ->
    exists a b, ws = a ++ w :: b /\ forall w', set_nth i w' ws = a ++ w' :: b.
  Proof.
    revert i. induction ws as [|x ws IH]; intros [|i]; cbn; try discriminate.
    - intros H; injection H as ->. now exists [], ws.
    - intros H. destruct (IH i H) as (a & b & -> & F). exists (x :: a), b. split; [reflexivity|].
      intros w'. cbn. now rewrite F.
  Qed.

  Definition pend (w : worker ref) : list ref := match w with Sending r _ => [r] | _ => [] end.
  Definition todo (w : worker ref) : list ref := match w with Look t | Sending _ t => t | Finished => [] end.
  Definition claimed (s : state ref) : list ref := received s ++ buffer s ++ flat_map pend (workers s).
  Definition remaining (s : state ref) : list ref := flat_map todo (workers s).

  Record inv (files : list (option (list ref))) (s : state ref) : Prop := mkInv {
    i_nodup : NoDup (seen s);
    i_perm : Permutation (map key (claimed s)) (seen s);
    i_from : forall r, In r (claimed s) \/ In r (remaining s) -> found_in files r;
    i_all : forall r, found_in files r -> In (key r) (seen s) \/ In r (remaining s);
    i_closed : closed s = true -> forallb is_finished (workers s) = true;
    i_over : over s = true -> closed s = true /\ buffer s = [];
    i_cap : length (workers s) <= cap s }.

  Lemma begin_inv files : inv files (begin files).
  Proof.
    unfold begin. constructor; cbn; try discriminate.
    - constructor.
    - assert (E : forall fs : list (option (list ref)),
        flat_map pend (flat_map (fun f => match f with None => [] | Some rs => [Look rs] end) fs) = []).
      { induction fs as [|[rs|] fs IH]; cbn; auto. }
      rewrite E. constructor.
    - intros r [H|H].
      + exfalso. apply in_flat_map in H as (w & I & J). apply in_flat_map in I as ([rs|] & _ & I); [|destruct I].
        destruct I as [<-|[]]. destruct J.
      + apply in_flat_map in H as (w & I & J). apply in_flat_map in I as ([rs|] & F & I); [|destruct I].
        destruct I as [<-|[]]. now exists rs.
    - intros r (rs & F & J). right. apply in_flat_map. exists (Look rs). split; [|exact J].
      apply in_flat_map. exists (Some rs). split; [exact F | now left].
    - induction files as [|[rs|] fs IH]; cbn; lia.
  Qed.

  Lemma forallb_mid {A} (f : A -> bool) a x b :
    forallb f (a ++ x :: b) = true -> f x = true.
  Proof. rewrite forallb_app. cbn. destruct (f x); [auto|]. now rewrite andb_false_r. Qed.

  Lemma step_inv files s a s' : inv files s -> step s a = Some (Next s') -> inv files s'.
  Proof.
    intros [ND PM FR AL CL OV CP] H. unfold Model.step in H.
    destruct (over s) eqn:Eo; [discriminate|].
    destruct a as [i| | |].
    - destruct (nth_error (workers s) i) as [w|] eqn:En; [|discriminate].
      destruct (set_nth_split _ _ _ En) as (x & y & Ew & Eset).
      unfold claimed, remaining in *. rewrite Ew in PM, FR, AL, CL, CP.
      rewrite (flat_map_app pend) in PM, FR. rewrite (flat_map_app todo) in FR, AL. cbn [flat_map] in PM, FR, AL.
      rewrite app_length in CP. cbn [length] in CP.
      destruct w as [t|r t|]; [destruct t as [|r t]| |discriminate].
      + injection H as <-. rewrite Eset. cbn [pend todo app] in *.
        constructor; cbn [workers seen buffer cap closed received over claimed remaining];
          unfold claimed, remaining; cbn [workers seen buffer cap closed received over];
          rewrite ?(flat_map_app pend), ?(flat_map_app todo); cbn [flat_map pend todo app]; auto; try congruence.
        * intros C. apply CL in C. apply forallb_mid in C. discriminate.
        * rewrite app_length. cbn. lia.
      + destruct (existsb (Nat.eqb (key r)) (seen s)) eqn:Ex; injection H as <-; rewrite Eset;
          cbn [pend todo app] in *.
        * constructor; unfold claimed, remaining; cbn [workers seen buffer cap closed received over];
            rewrite ?(flat_map_app pend), ?(flat_map_app todo); cbn [flat_map pend todo app]; auto; try congruence.
          -- intros q [Q|Q]; apply FR; [now left|right]. apply in_app_or in Q as [Q|Q]; apply in_or_app; [now left|right].
             now right.
          -- intros q F. destruct (AL q F) as [Q|Q]; [now left|].
             apply in_app_or in Q as [Q|[<-|Q]].
             ++ right. apply in_or_app. now left.
             ++ left. apply existsb_exists in Ex as (k & I & E). apply Nat.eqb_eq in E. now rewrite E.
             ++ right. apply in_or_app. now right.
          -- intros C. apply CL in C. apply forallb_mid in C. discriminate.
          -- rewrite app_length. cbn. lia.
        * constructor; unfold claimed, remaining; cbn [workers seen buffer cap closed received over];
            rewrite ?(flat_map_app pend), ?(flat_map_app todo); cbn [flat_map pend todo app]; auto; try congruence.
          -- constructor; [|exact ND]. intros I. apply not_true_iff_false in Ex. apply Ex.
             apply existsb_exists. exists (key r). split; [exact I | apply Nat.eqb_refl].
          -- etransitivity; [|apply perm_skip; exact PM].
             rewrite !map_app. cbn [map].
             rewrite !app_assoc. symmetry. apply Permutation_middle.
          -- intros q [Q|Q].
             ++ apply in_app_or in Q as [Q|Q]; [apply FR; left; apply in_or_app; now left|].
                apply in_app_or in Q as [Q|Q]; [apply FR; left; apply in_or_app; right; apply in_or_app; now left|].
                apply in_app_or in Q as [Q|[<-|Q]].
                ** apply FR; left; apply in_or_app; right; apply in_or_app; right; apply in_or_app; now left.
                ** apply FR; right; apply in_or_app; right; now left.
                ** apply FR; left; apply in_or_app; right; apply in_or_app; right; apply in_or_app; now right.
             ++ apply FR; right. apply in_app_or in Q as [Q|Q]; apply in_or_app; [now left|right; now right].
          -- intros q F. destruct (AL q F) as [Q|Q]; [left; now right|].
             apply in_app_or in Q as [Q|[<-|Q]].
             ++ right. apply in_or_app. now left.
             ++ left. now left.
             ++ right. apply in_or_app. now right.
          -- intros C. apply CL in C. apply forallb_mid in C. discriminate.
          -- rewrite app_length. cbn. lia.
      + destruct (closed s) eqn:Ec; [discriminate|].
        destruct (length (buffer s) <? cap s); [|discriminate].
        injection H as <-. rewrite Eset. cbn [pend todo app] in *.
        constructor; unfold claimed, remaining; cbn [workers seen buffer cap closed received over];
          rewrite ?(flat_map_app pend), ?(flat_map_app todo); cbn [flat_map pend todo app]; auto; try congruence.
        * etransitivity; [|exact PM]. rewrite !map_app. cbn [map]. rewrite <- !app_assoc.
          do 2 apply Permutation_app_head. cbn. apply Permutation_middle.
        * intros q [Q|Q]; apply FR; [left|right; exact Q].
          rewrite !in_app_iff in *. cbn in *. tauto.
        * rewrite app_length. cbn. lia.
    - destruct (forallb is_finished (workers s) && negb (closed s)) eqn:E; [|discriminate].
      apply andb_prop in E as [E1 E2]. injection H as <-.
      constructor; unfold claimed, remaining in *; cbn [workers seen buffer cap closed received over]; auto; try congruence.
    - destruct (buffer s) as [|r b] eqn:Eb; [discriminate|]. injection H as <-.
      constructor; unfold claimed, remaining in *; cbn [workers seen buffer cap closed received over]; auto; try congruence.
      + etransitivity; [|exact PM]. rewrite Eb, !map_app. cbn [map]. rewrite <- !app_assoc. reflexivity.
      + intros q [Q|Q]; apply FR; [left|now right]. rewrite Eb. rewrite !in_app_iff in *. cbn in *. tauto.
    - destruct (buffer s) eqn:Eb; [|discriminate]. destruct (closed s) eqn:Ec; [|discriminate].
      injection H as <-.
      constructor; unfold claimed, remaining in *; cbn [workers seen buffer cap closed received over]; auto; try congruence.
      rewrite Eb in FR. exact FR.
  Qed.

  Lemma run_inv files s acts s' : inv files s -> run s acts = Some (Next s') -> inv files s'.
  Proof.
    revert s. induction acts as [|a acts IH]; cbn; intros s I H; [now injection H as <-|].
    destruct (step s a) as [[s1|]|] eqn:E; try discriminate.
    apply (IH s1); [|exact H]. now apply (step_inv files s a).
  Qed.

  Lemma step_no_panic files s a : inv files s -> step s a <> Some Panic.
  Proof.
    intros I H. unfold Model.step in H. destruct (over s); [discriminate|].
    destruct a as [i| | |].
    - destruct (nth_error (workers s) i) as [[[|r t]|r t|]|] eqn:En; try discriminate.
      + destruct (existsb _ _); discriminate.
      + destruct (closed s) eqn:Ec.
        * apply (i_closed _ _ I) in Ec. destruct (set_nth_split _ _ _ En) as (x & y & Ew & _).
          rewrite Ew in Ec. apply forallb_mid in Ec. discriminate.
        * destruct (length (buffer s) <? cap s); discriminate.
    - destruct (_ && _); discriminate.
    - destruct (buffer s); discriminate.
    - destruct (buffer s); [destruct (closed s)|]; discriminate.
  Qed.

  Lemma run_no_panic files s acts : inv files s -> run s acts <> Some Panic.
  Proof.
    revert s. induction acts as [|a acts IH]; cbn; intros s I H; [discriminate|].
    destruct (step s a) as [[s1|]|] eqn:E; try discriminate.
    - apply (IH s1); [|exact H]. now apply (step_inv files s a).
    - now apply (step_no_panic files s a).
  Qed.

  Lemma unfinished_or (ws : list (worker ref)) :
    forallb is_finished ws = true \/ exists i w, nth_error ws i = Some w /\ is_finished w = false.
  Proof.
    induction ws as [|w ws IH]; cbn; [now left|].
    destruct (is_finished w) eqn:E.
    - destruct IH as [->|(i & v & H & F)]; [now left|]. right. now exists (S i), v.
    - right. now exists 0, w.
  Qed.

  Lemma progress files s : inv files s -> over s = false -> exists a s', step s a = Some (Next s').
  Proof.
    intros I O. unfold Model.step. rewrite O.
    destruct (buffer s) as [|r b] eqn:Eb.
    - destruct (unfinished_or (workers s)) as [F|(i & w & En & U)].
      + destruct (closed s) eqn:Ec.
        * exists End. eauto.
        * exists Close. rewrite F. cbn. eauto.
      + exists (Work i). rewrite En. destruct w as [[|q t]|q t|]; try discriminate; eauto.
        * destruct (existsb _ _); eauto.
        * destruct (closed s) eqn:Ec.
          { apply (i_closed _ _ I) in Ec. destruct (set_nth_split _ _ _ En) as (x & y & Ew & _).
            rewrite Ew in Ec. apply forallb_mid in Ec. discriminate. }
          pose proof (i_cap _ _ I) as C. destruct (set_nth_split _ _ _ En) as (x & y & Ew & _).
          rewrite Ew, app_length in C. cbn in C.
          destruct (Nat.ltb_spec (length (@nil ref)) (cap s)) as [|G]; [eauto|cbn in G; lia].
    - exists Receive. eauto.
  Qed.

  Definition cost (w : worker ref) : nat :=
    match w with Look t => 1 + 3 * length t | Sending _ t => 3 + 3 * length t | Finished => 0 end.
  Definition costs (ws : list (worker ref)) : nat := fold_right (fun w n => cost w + n) 0 ws.
  Definition measure (s : state ref) : nat :=
    costs (workers s) + length (buffer s) + (if closed s then 0 else 1) + (if over s then 0 else 1).

  Lemma costs_app a b : costs (a ++ b) = costs a + costs b.
  Proof. unfold costs. induction a as [|w a IH]; cbn [app fold_right]; [reflexivity | rewrite IH; lia]. Qed.

  Lemma step_measure s a s' : step s a = Some (Next s') -> S (measure s') <= measure s.
  Proof.
    unfold Model.step, measure. destruct (over s) eqn:Eo; [discriminate|]. destruct a as [i| | |]; intros H.
    - destruct (nth_error (workers s) i) as [w|] eqn:En; [|discriminate].
      destruct (set_nth_split _ _ _ En) as (x & y & Ew & Eset).
      destruct w as [[|r t]|r t|]; [| | |discriminate].
      + injection H as <-. cbn [workers buffer closed over]. rewrite Eset, Ew, !costs_app. cbn. lia.
      + destruct (existsb _ _); injection H as <-; cbn [workers buffer closed over];
          rewrite Eset, Ew, !costs_app; cbn [costs fold_right cost length]; lia.
      + destruct (closed s) eqn:Ec; [discriminate|]. destruct (_ <? _); [|discriminate].
        injection H as <-. cbn [workers buffer closed over].
        rewrite Eset, Ew, !costs_app, app_length. cbn [costs fold_right cost length]. lia.
    - destruct (_ && _) eqn:E; [|discriminate]. apply andb_prop in E as [_ E].
      injection H as <-. cbn [workers buffer closed over]. destruct (closed s); [discriminate|].
      lia.
    - destruct (buffer s) as [|r b]; [discriminate|]. injection H as <-.
      cbn [workers buffer closed over length]. lia.
    - destruct (buffer s) as [|r b]; [|discriminate]. destruct (closed s) eqn:Ec; [|discriminate].
      injection H as <-. cbn [workers buffer closed over length]. lia.
  Qed.

  Lemma run_measure s acts s' : run s acts = Some (Next s') -> length acts + measure s' <= measure s.
  Proof.
    revert s. induction acts as [|a acts IH]; cbn; intros s H; [injection H as <-; lia|].
    destruct (step s a) as [[s1|]|] eqn:E; try discriminate.
    apply IH in H. apply step_measure in E. lia.
  Qed.

  Definition refs_of (files : list (option (list ref))) : nat :=
    fold_right (fun f n => match f with None => n | Some rs => length rs + n end) 0 files.

  Lemma begin_measure files : measure (begin files) <= 3 * refs_of files + length files + 2.
  Proof.
    unfold measure, begin. cbn [workers buffer closed over length].
    assert (E : costs (flat_map (fun f : option (list ref) => match f with None => [] | Some rs => [Look rs] end) files)
                <= 3 * refs_of files + length files).
    { unfold refs_of. induction files as [|[rs|] fs IH]; cbn [flat_map fold_right length app]; [cbn; lia| |lia].
      unfold costs in *. cbn [fold_right cost]. lia. }
    lia.
  Qed.

  Lemma flat_todo_finished (ws : list (worker ref)) : forallb is_finished ws = true -> flat_map todo ws = [] /\ flat_map pend ws = [].
  Proof.
    induction ws as [|[t|r t|] ws IH]; cbn; try discriminate; auto.
  Qed.

  Lemma final files s : inv files s -> over s = true ->
    NoDup (map key (received s)) /\
    (forall r, In r (received s) -> found_in files r) /\
    (forall r, found_in files r -> In (key r) (map key (received s))).
  Proof.
    intros I O. destruct (i_over _ _ I O) as [C B].
    pose proof (flat_todo_finished _ (i_closed _ _ I C)) as [T P].
    pose proof (i_perm _ _ I) as PM. unfold claimed in PM. rewrite B, P, !app_nil_r in PM.
    split; [|split].
    - eapply Permutation_NoDup; [symmetry; exact PM | apply (i_nodup _ _ I)].
    - intros r H. apply (i_from _ _ I). left. unfold claimed. apply in_or_app. now left.
    - intros r F. destruct (i_all _ _ I r F) as [H|H].
      + eapply Permutation_in; [symmetry; exact PM | exact H].
      + unfold remaining in H. rewrite T in H. destruct H.
  Qed.

  Lemma partial_once files s : inv files s -> NoDup (map key (received s)) /\ forall r, In r (received s) -> found_in files r.
  Proof.
    intros I. split.
    - assert (N : NoDup (map key (claimed s))).
      { eapply Permutation_NoDup; [symmetry; apply (i_perm _ _ I) | apply (i_nodup _ _ I)]. }
      unfold claimed in N. rewrite map_app in N. revert N. generalize (map key (received s)) as a.
      generalize (map key (buffer s ++ flat_map pend (workers s))) as b.
      intros b a. induction a; cbn; intros N; constructor; inversion N; subst; auto.
      intros J. apply H1. apply in_or_app. now left.
    - intros r H. apply (i_from _ _ I). left. unfold claimed. apply in_or_app. now left.
  Qed.
End Refs.

(** ** Paths *)

Section TreeInd.
  Variable P : tree -> Prop.
  Hypothesis H : forall i k s e cs, (forall st c, In (st, c) cs -> P c) -> P (Tree i k s e cs).
  Fixpoint tree_nested (t : tree) : P t :=
    match t with
    | Tree i k s e cs =>
        H i k s e cs
          ((fix go (l : list (list nat * tree)) : forall st c, In (st, c) l -> P c :=
              match l with
              | [] => fun st c (F : In (st, c) []) => match F with end
              | (st', c') :: r => fun st c F =>
                  match F with
                  | or_introl E => eq_ind c' P (tree_nested c') c (f_equal snd E)
                  | or_intror J => go r st c J
                  end
              end) cs)
    end.
End TreeInd.

Lemma intersects_iff s e p : intersects s e p = true <-> le_pos s p /\ le_pos p e.
Proof.
  unfold intersects, le_pos.
  destruct (Nat.ltb_spec (pl p) (pl s)), (Nat.ltb_spec (pl e) (pl p)); cbn [orb];
    try (split; [discriminate | intros Hh; exfalso; lia]).
  destruct (Nat.eqb_spec (pl s) (pl p)), (Nat.ltb_spec (pc p) (pc s)),
    (Nat.eqb_spec (pl e) (pl p)), (Nat.ltb_spec (pc e) (pc p)); cbn;
    (split; [try discriminate; intros _; lia | intros Hh; try reflexivity; exfalso; lia]).
Qed.

Lemma exclusive_iff s e q p : intersects_exclusive s e (ClosesAt q) p = true <-> le_pos s p /\ lt_pos p q.
Proof.
  unfold intersects_exclusive. destruct (intersects s q p) eqn:E.
  - apply intersects_iff in E as [A B]. unfold le_pos, lt_pos in *.
    destruct (Nat.ltb_spec (pl p) (pl q)), (Nat.ltb_spec (pc p) (pc q)); cbn;
      (split; [try discriminate; intros _; lia | intros Hh; try reflexivity; exfalso; lia]).
  - split; [discriminate|]. intros [A B]. exfalso. apply not_true_iff_false in E. apply E.
    apply intersects_iff. split; [exact A|]. unfold le_pos, lt_pos in *. lia.
Qed.

Lemma visit_in enter name_of p token t :
  forall d x, In x (visit enter name_of p token d t) <->
    exists d' i k s e cs, reached enter (fun _ => true) d t d' (Tree i k s e cs) /\
      (records k s e p = true /\ x = (d', i) \/
       exists sep, k = MsgField (Some sep) /\ token = sep /\ x = (d' + 1, name_of i)).
Proof.
  induction t as [i k s e cs IH] using tree_nested. intros d x.
  cbn [visit]. destruct (enter i) eqn:En.
  - rewrite !in_app_iff. split.
    + intros [X|[X|X]].
      * destruct (records k s e p) eqn:R; [|destruct X]. destruct X as [<-|[]].
        exists d, i, k, s, e, cs. split; [now constructor|]. now left.
      * assert (Y : exists sep, k = MsgField (Some sep) /\ token = sep /\ x = (d + 1, name_of i)).
        { destruct k as [| | | |[sep|]|]; try destruct X. destruct (Nat.eqb_spec token sep); [|destruct X].
          destruct X as [<-|[]]. now exists sep. }
        exists d, i, k, s, e, cs. split; [now constructor|]. now right.
      * apply in_flat_map in X as ([st c] & I & X). apply (IH st c I) in X as (d' & i' & k' & s' & e' & cs' & Re & Z).
        exists d', i', k', s', e', cs'. split; [|exact Z]. now apply reached_below with (steps := st) (c := c).
    + intros (d' & i' & k' & s' & e' & cs' & Re & Z). inversion Re; subst.
      * destruct Z as [[R ->]|(sep & -> & -> & ->)].
        -- left. rewrite R. now left.
        -- right; left. rewrite Nat.eqb_refl. now left.
      * right; right. apply in_flat_map. exists (steps, c). split; [assumption|].
        apply (IH steps c); [assumption|]. now exists d', i', k', s', e', cs'.
  - split; [intros []|]. intros (d' & i' & k' & s' & e' & cs' & Re & _). inversion Re; congruence.
Qed.

Lemma longest_spec ps : forall best,
  (longest best ps = best /\ forall q, In q ps -> fst q <= fst best) \/
  (exists a b, ps = a ++ longest best ps :: b /\ fst best < fst (longest best ps) /\
     (forall q, In q a -> fst q < fst (longest best ps)) /\ forall q, In q b -> fst q <= fst (longest best ps)).
Proof.
  induction ps as [|q ps IH]; intros best; cbn [longest]; [left; split; [reflexivity | intros q []]|].
  destruct (Nat.ltb_spec (fst best) (fst q)) as [L|L].
  - destruct (IH q) as [[E F]|(a & b & E & B & F & G)].
    + right. exists [], ps. rewrite E. cbn. repeat split; auto. intros q' [].
    + right. exists (q :: a), b. cbn. split; [now rewrite <- E|]. split; [lia|]. split; [|exact G].
      intros q' [<-|I]; [lia | now apply F].
  - destruct (IH best) as [[E F]|(a & b & E & B & F & G)].
    + left. split; [exact E|]. intros q' [<-|I]; [lia | now apply F].
    + right. exists (q :: a), b. cbn. split; [now rewrite <- E|]. split; [lia|]. split; [|exact G].
      intros q' [<-|I]; [lia | now apply F].
Qed.

Lemma path_at_spec enter name_of p token t x :
  path_at enter name_of p token t = Some x <->
  exists a b, visit enter name_of p token 1 t = a ++ x :: b /\
    (forall q, In q a -> fst q < fst x) /\ forall q, In q b -> fst q <= fst x.
Proof.
  unfold path_at. destruct (visit enter name_of p token 1 t) as [|q r].
  - split; [discriminate|]. intros (a & b & E & _). now destruct a.
  - assert (S : exists a b, q :: r = a ++ longest q (q :: r) :: b /\
       (forall u, In u a -> fst u < fst (longest q (q :: r))) /\ forall u, In u b -> fst u <= fst (longest q (q :: r))).
    { cbn [longest]. rewrite Nat.ltb_irrefl.
      destruct (longest_spec r q) as [[E F]|(a & b & E & B & F & G)].
      - exists [], r. rewrite E. repeat split; auto. intros u [].
      - exists (q :: a), b. cbn. split; [now rewrite <- E|]. split; [|exact G].
        intros u [<-|I]; [exact B | now apply F]. }
    split.
    + intros X; injection X as <-. exact S.
    + intros (a & b & E & F & G). f_equal. destruct S as (a' & b' & E' & F' & G').
      set (m := longest q (q :: r)) in *. clearbody m. rewrite E in E'. clear E q r.
      revert a' E' F'. induction a as [|u a IH]; intros [|u' a'] E' F'; cbn in E'.
      * now injection E' as <- _.
      * exfalso. injection E' as <- E'. assert (fst x < fst m) by (apply F'; now left).
        assert (fst m <= fst x); [|lia]. apply G. rewrite E'. apply in_or_app. right. now left.
      * exfalso. injection E' as -> E'. assert (fst m < fst x) by (apply F; now left).
        assert (fst x <= fst m); [|lia]. apply G'. rewrite <- E'. apply in_or_app. right. now left.
      * injection E' as <- E'. apply (IH (fun u I => F u (or_intror I)) a' E' (fun u I => F' u (or_intror I))).
Qed.

(** *** Enclosing range *)

Definition through (role : nat -> option bool) (i : nat) : bool := match role i with None => false | Some _ => true end.

Lemma enclosing_in enter role t :
  forall d x, In x (enclosing enter role d t) <->
    exists d' i k s e cs, reached enter (through role) d t d' (Tree i k s e cs) /\ role i = Some true /\ x = (d', i).
Proof.
  induction t as [i k s e cs IH] using tree_nested. intros d x.
  cbn [enclosing]. destruct (enter i) eqn:En.
  - destruct (role i) as [rc|] eqn:Er.
    + rewrite in_app_iff. split.
      * intros [X|X].
        -- destruct rc; [|destruct X]. destruct X as [<-|[]]. exists d, i, k, s, e, cs.
           split; [now constructor | now split].
        -- apply in_flat_map in X as ([st c] & I & X). apply (IH st c I) in X as (d' & i' & k' & s' & e' & cs' & Re & Z).
           exists d', i', k', s', e', cs'. split; [|exact Z]. apply reached_below with (steps := st) (c := c); auto.
           unfold through. now rewrite Er.
      * intros (d' & i' & k' & s' & e' & cs' & Re & R & ->). inversion Re; subst.
        -- left. rewrite R in Er. injection Er as <-. now left.
        -- right. apply in_flat_map. exists (steps, c). split; [assumption|].
           apply (IH steps c); [assumption|]. now exists d', i', k', s', e', cs'.
    + split; [intros []|]. intros (d' & i' & k' & s' & e' & cs' & Re & R & ->). inversion Re; subst.
      * congruence.
      * unfold through in *. rewrite Er in *. discriminate.
  - split; [intros []|]. intros (d' & i' & k' & s' & e' & cs' & Re & _). inversion Re; congruence.
Qed.

Definition top (ps : list (nat * nat)) : nat := fold_right (fun q n => Nat.max (fst q) n) 0 ps.

Lemma top_le ps q : In q ps -> fst q <= top ps.
Proof. unfold top. induction ps as [|u ps IH]; cbn [In fold_right]; [intros []|]. intros [<-|I]; [lia | apply IH in I; lia]. Qed.

Lemma top_app a b : top (a ++ b) = Nat.max (top a) (top b).
Proof. unfold top. induction a as [|u a IH]; cbn [app fold_right]; [reflexivity | rewrite IH; lia]. Qed.

(** the recorded list is the sublist of new maxima; its last run is what counts *)
Lemma kept_spec ps :
  let acc := fold_left keep ps [] in
  match rev acc with
  | [] => ps = []
  | l :: r => fst l = top ps /\ (forall q, In q r -> fst q <= fst l) /\
              rev (filter (fun q => fst q =? top ps) ps) = l :: tail_run (fst l) r /\
              (forall q, In q r -> In q ps) /\ In l ps
  end.
Proof.
  induction ps as [|q ps IH] using rev_ind; [reflexivity|].
  rewrite fold_left_app. cbn [fold_left]. cbn zeta in IH.
  set (acc := fold_left keep ps []) in *. unfold keep.
  destruct (rev acc) as [|l r] eqn:Er.
  - subst ps. cbn. rewrite Nat.max_0_r, Nat.eqb_refl. cbn. repeat split; auto; intros ? [].
  - destruct IH as (T & B & F & I & L). rewrite top_app. cbn [top fold_right]. rewrite Nat.max_0_r.
    destruct (Nat.leb_spec (fst l) (fst q)) as [G|G].
    + rewrite rev_unit, Er. assert (M : Nat.max (top ps) (fst q) = fst q) by lia. rewrite M.
      split; [reflexivity|]. split.
      { intros u [<-|J]; [exact G | apply B in J; lia]. }
      split.
      * rewrite filter_app. cbn [filter]. rewrite Nat.eqb_refl, rev_app_distr. cbn [rev app]. f_equal.
        cbn [tail_run]. destruct (Nat.ltb_spec (fst l) (fst q)) as [S|S].
        -- assert (E : filter (fun u => fst u =? fst q) ps = []).
           { assert (Z : forall u, In u ps -> fst u < fst q) by (intros u J; apply top_le in J; lia).
             clear -Z. induction ps as [|u ps IH]; cbn; [reflexivity|].
             destruct (Nat.eqb_spec (fst u) (fst q)) as [E|_]; [specialize (Z u (or_introl eq_refl)); lia|].
             apply IH. intros v J. apply Z. now right. }
           now rewrite E.
        -- assert (Eq : fst q = top ps) by lia. rewrite Eq. rewrite T in F. rewrite F, T. reflexivity.
      * split; [|apply in_or_app; right; now left].
        intros u [<-|J]; apply in_or_app; left; auto.
    + rewrite Er. assert (M : Nat.max (top ps) (fst q) = top ps) by lia. rewrite M.
      split; [exact T|]. split; [exact B|]. split.
      * rewrite filter_app. cbn [filter]. destruct (Nat.eqb_spec (fst q) (top ps)); [lia|].
        now rewrite app_nil_r.
      * split; [intros u J|]; apply in_or_app; left; auto.
Qed.

Lemma enclosing_range_eq enter role t :
  enclosing_range enter role t =
  match enclosing enter role 1 t with
  | [] => None
  | ps => Some (filter (fun q => fst q =? top ps) ps)
  end.
Proof.
  unfold enclosing_range. pose proof (kept_spec (enclosing enter role 1 t)) as K. cbn zeta in K.
  set (ps := enclosing enter role 1 t) in *. clearbody ps.
  destruct (rev (fold_left keep ps [])) as [|l r] eqn:E.
  - now rewrite K.
  - destruct K as (T & _ & F & _ & L). destruct ps as [|q ps]; [destruct L|].
    rewrite <- F. now rewrite rev_involutive.
Qed.

Lemma filter_top_in ps q :
  In q (filter (fun u => fst u =? top ps) ps) <-> In q ps /\ forall u, In u ps -> fst u <= fst q.
Proof.
  rewrite filter_In, Nat.eqb_eq. split.
  - intros [I E]. split; [exact I|]. intros u J. rewrite E. now apply top_le.
  - intros [I F]. split; [exact I|]. apply Nat.le_antisymm; [now apply top_le|].
    clear I. unfold top. induction ps as [|u ps IH]; cbn [fold_right]; [lia|].
    pose proof (F u (or_introl eq_refl)). specialize (IH (fun v J => F v (or_intror J))). lia.
Qed.

Lemma sublist_nil {A} (b : list A) : sublist [] b.
Proof. induction b; constructor; auto. Qed.

Lemma sublist_app {A} (a b c d : list A) : sublist a b -> sublist c d -> sublist (a ++ c) (b ++ d).
Proof. induction 1; cbn; intros K; [exact K | apply sub_skip; auto | apply sub_keep; auto]. Qed.

Lemma sublist_trans {A} (a b c : list A) : sublist a b -> sublist b c -> sublist a c.
Proof.
  intros H K. revert a H. induction K; intros l H; auto.
  - apply sub_skip. auto.
  - inversion H; subst; [apply sub_skip | apply sub_keep]; auto.
Qed.

Lemma sublist_filter {A} (f : A -> bool) l : sublist (filter f l) l.
Proof. induction l; cbn; [constructor|]. destruct (f a); [apply sub_keep | apply sub_skip]; auto. Qed.

Lemma enclosing_sublist enter role t : forall d, sublist (enclosing enter role d t) (preorder d t).
Proof.
  induction t as [i k s e cs IH] using tree_nested. intros d. cbn [enclosing preorder].
  assert (S : sublist (flat_map (fun c => enclosing enter role (d + length (fst c)) (snd c)) cs)
                      (flat_map (fun c => preorder (d + length (fst c)) (snd c)) cs)).
  { clear -IH. induction cs as [|[st c] cs IHc]; cbn [flat_map]; [constructor|].
    apply sublist_app; [apply (IH st); now left|]. apply IHc. intros st' c' J. apply (IH st'). now right. }
  destruct (enter i); [|apply sublist_nil]. destruct (role i) as [[]|]; [| |apply sublist_nil]; cbn [app]; [apply sub_keep | apply sub_skip]; exact S.
Qed.
