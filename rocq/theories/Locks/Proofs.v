From Verif Require Import Base.
From Verif.Locks Require Import Model Spec.

Lemma nth_set_same {A} i (x : A) l : i < List.length l -> nth_error (set_nth i x l) i = Some x.
Proof.
  intros H. unfold set_nth. rewrite nth_error_app2; rewrite firstn_length, Nat.min_l by lia; [|lia].
  now rewrite Nat.sub_diag.
Qed.
Lemma nth_set_other {A} i j (x : A) l : i < List.length l -> j <> i -> nth_error (set_nth i x l) j = nth_error l j.
Proof.
  intros H N. unfold set_nth. destruct (Nat.lt_ge_cases j i) as [L|L].
  - rewrite nth_error_app1 by (rewrite firstn_length; lia).
    rewrite <- (firstn_skipn i l) at 2. rewrite nth_error_app1; [reflexivity|rewrite firstn_length; lia].
  - rewrite nth_error_app2; rewrite firstn_length, Nat.min_l by lia; [|lia].
    destruct (j - i) as [|k] eqn:E; [lia|]. cbn [nth_error].
    rewrite <- (firstn_skipn (S i) l) at 2. rewrite nth_error_app2; rewrite firstn_length, Nat.min_l by lia; [|lia].
    f_equal. lia.
Qed.
Lemma set_nth_length {A} i (x : A) l : i < List.length l -> List.length (set_nth i x l) = List.length l.
Proof. intros H. unfold set_nth. rewrite app_length. cbn [List.length]. rewrite firstn_length, skipn_length. lia. Qed.

(** Invariant for flat programs: each thread is outside, inside reading, or
    inside writing; [readers] counts the ones reading. *)
Inductive inside : list action -> nat -> Prop :=
| in_out p : flat p -> inside p 0
| in_read p : flat p -> inside (RUnlock :: p) 1.

Fixpoint reading (ps : list (list action)) : nat :=
  match ps with
  | [] => 0
  | (RUnlock :: _) :: r => S (reading r)
  | _ :: r => reading r
  end.

Definition is_read (p : list action) : nat := match p with RUnlock :: _ => 1 | _ => 0 end.
Lemma reading_cons p r : reading (p :: r) = is_read p + reading r.
Proof. destruct p as [|[] p]; reflexivity. Qed.
Lemma reading_app a b : reading (a ++ b) = reading a + reading b.
Proof. induction a as [|p a IH]; [reflexivity|]. cbn [app]. rewrite !reading_cons, IH. lia. Qed.
Lemma reading_set i x l p : nth_error l i = Some p -> reading (set_nth i x l) + is_read p = reading l + is_read x.
Proof.
  intros H. assert (E : l = firstn i l ++ p :: skipn (S i) l).
  { clear -H. revert i H. induction l as [|q l IH]; intros [|i] H; cbn in H; try discriminate.
    - now injection H as ->.
    - cbn [firstn app]. rewrite skipn_cons. f_equal. now apply IH. }
  rewrite E at 2. unfold set_nth. rewrite !reading_app, !reading_cons. lia.
Qed.

(** thread shapes *)
Inductive shape : list action -> Prop :=
| sh_out p : flat p -> shape p
| sh_read p : flat p -> shape (RUnlock :: p)
| sh_write p : flat p -> shape (Unlock :: p).

Definition Inv (s : state) : Prop :=
  (forall p, In p (threads s) -> shape p) /\
  readers s = reading (threads s) /\
  (forall i p, nth_error (threads s) i = Some (Unlock :: p) -> writer s = Some (i, true)) /\
  (forall i, writer s = Some (i, true) -> exists p, nth_error (threads s) i = Some (Unlock :: p)) /\
  (forall i, writer s = Some (i, false) -> exists p, nth_error (threads s) i = Some (Lock :: p)).

Lemma flat_inv_rlock p : flat (RLock :: p) -> exists q, p = RUnlock :: q /\ flat q.
Proof. inversion 1; subst; eauto. Qed.
Lemma flat_inv_lock p : flat (Lock :: p) -> exists q, p = Unlock :: q /\ flat q.
Proof. inversion 1; subst; eauto. Qed.
Lemma flat_not_unlock p : ~ flat (Unlock :: p). Proof. intros H; inversion H. Qed.
Lemma flat_not_runlock p : ~ flat (RUnlock :: p). Proof. intros H; inversion H. Qed.

Lemma in_set {A} i (x : A) l q : In q (set_nth i x l) -> q = x \/ In q l.
Proof.
  unfold set_nth. rewrite in_app_iff. cbn. intros [H|[H|H]]; auto; right.
  - rewrite <- (firstn_skipn i l). apply in_or_app. auto.
  - rewrite <- (firstn_skipn (S i) l). apply in_or_app. auto.
Qed.

Lemma inv_init ps : (forall p, In p ps -> flat p) -> Inv (init ps).
Proof.
  intros H. split; [intros p HI; now apply sh_out, H|]. split; [|split; [|split; discriminate]].
  - cbn. induction ps as [|p ps IH]; [reflexivity|]. rewrite reading_cons.
    rewrite <- IH by (intros q HQ; apply H; now right).
    assert (F := H p ltac:(now left)). destruct F; reflexivity.
  - cbn. intros i p E. apply nth_error_In in E. apply H in E. now apply flat_not_unlock in E.
Qed.

Lemma nth_lt {A} (l : list A) i x : nth_error l i = Some x -> i < List.length l.
Proof. intros H. apply nth_error_Some. congruence. Qed.

Lemma inv_step s t i : Inv s -> step i s = Some t -> Inv t.
Proof.
  intros (SH & RD & U1 & U2 & U3) E. unfold step in E.
  destruct (nth_error (threads s) i) as [[|a p]|] eqn:N; try discriminate.
  assert (LT := nth_lt _ _ _ N).
  assert (SP := SH _ (nth_error_In _ _ N)).
  destruct a.
  - (* RLock *)
    destruct (writer s) as [|] eqn:W; [discriminate|]. injection E as <-.
    assert (exists q, p = RUnlock :: q /\ flat q) as (q & -> & F) by (inversion SP; subst; now apply flat_inv_rlock).
    unfold Inv. cbn [threads readers writer]. split; [|split; [|split; [|split; discriminate]]].
    + intros p' HI. apply in_set in HI as [->|HI]; [now apply sh_read|auto].
    + assert (R := reading_set i (RUnlock :: q) _ _ N). cbn [is_read] in R. lia.
    + intros j p' HJ. destruct (Nat.eq_dec j i) as [->|M].
      * rewrite nth_set_same in HJ by assumption. discriminate.
      * rewrite nth_set_other in HJ by assumption. apply U1 in HJ. congruence.
  - (* RUnlock *)
    injection E as <-.
    assert (F : flat p) by (inversion SP; subst; [exfalso; eapply flat_not_runlock; eauto|assumption]).
    unfold Inv. cbn [threads readers writer]. split; [|split; [|split; [|split]]].
    + intros p' HI. apply in_set in HI as [->|HI]; [now apply sh_out|auto].
    + assert (R := reading_set i p _ _ N). cbn [is_read] in R.
      assert (is_read p = 0) by (destruct F; reflexivity). lia.
    + intros j p' HJ. destruct (Nat.eq_dec j i) as [->|M].
      * rewrite nth_set_same in HJ by assumption. injection HJ as ->. now apply flat_not_unlock in F.
      * rewrite nth_set_other in HJ by assumption. now apply U1 in HJ.
    + intros j HJ. destruct (U2 j HJ) as [p' Hp']. exists p'. rewrite nth_set_other; [exact Hp'|assumption|].
      intros ->. congruence.
    + intros j HJ. destruct (U3 j HJ) as [p' Hp']. exists p'. rewrite nth_set_other; [exact Hp'|assumption|].
      intros ->. congruence.
  - (* Lock *)
    assert (exists q, p = Unlock :: q /\ flat q) as (q & -> & F) by (inversion SP; subst; now apply flat_inv_lock).
    destruct (writer s) as [[j b]|] eqn:W.
    + destruct b; [discriminate|]. destruct (Nat.eqb_spec j i) as [->|]; [|discriminate].
      destruct (readers s) eqn:RS; [|discriminate]. injection E as <-.
      unfold Inv. cbn [threads readers writer]. split; [|split; [|split; [|split]]].
      * intros p' HI. apply in_set in HI as [->|HI]; [now apply sh_write|auto].
      * assert (R := reading_set i (Unlock :: q) _ _ N). cbn [is_read] in R. lia.
      * intros j p' HJ. destruct (Nat.eq_dec j i) as [->|M]; [reflexivity|].
        rewrite nth_set_other in HJ by assumption. apply U1 in HJ. congruence.
      * intros j [= <-]. exists q. now apply nth_set_same.
      * discriminate.
    + injection E as <-. unfold Inv. cbn [threads readers writer]. split; [auto|split; [auto|split; [|split]]].
      * intros j p' HJ. apply U1 in HJ. congruence.
      * discriminate.
      * intros j [= <-]. eauto.
  - (* Unlock *)
    injection E as <-. assert (W := U1 _ _ N).
    assert (F : flat p) by (inversion SP; subst; [exfalso; eapply flat_not_unlock; eauto|assumption]).
    unfold Inv. cbn [threads readers writer]. split; [|split; [|split; [|split; discriminate]]].
    + intros p' HI. apply in_set in HI as [->|HI]; [now apply sh_out|auto].
    + assert (R := reading_set i p _ _ N). cbn [is_read] in R. assert (is_read p = 0) by (destruct F; reflexivity). lia.
    + intros j p' HJ. destruct (Nat.eq_dec j i) as [->|M].
      * rewrite nth_set_same in HJ by assumption. injection HJ as ->. now apply flat_not_unlock in F.
      * rewrite nth_set_other in HJ by assumption. apply U1 in HJ. congruence.
Qed.

Lemma inv_reach s t n : Inv s -> reach s t n -> Inv t.
Proof. intros I R. induction R; [exact I|]. eapply inv_step; [|eassumption]. auto. Qed.

Lemma reading_pos ps : 0 < reading ps -> exists i p, nth_error ps i = Some (RUnlock :: p).
Proof.
  induction ps as [|p ps IH]; [cbn; lia|]. rewrite reading_cons. intros H.
  destruct p as [|[] p]; cbn [is_read] in H; try (destruct (IH ltac:(lia)) as (i & q & Hq); exists (S i), q; exact Hq).
  exists 0, p. reflexivity.
Qed.

Lemma not_finished (ps : list (list action)) : ~ (forall p, In p ps -> p = []) -> exists i a p, nth_error ps i = Some (a :: p).
Proof.
  induction ps as [|p ps IH]; intros N; [exfalso; apply N; intros ? []|].
  destruct p as [|a p]; [|exists 0, a, p; reflexivity].
  destruct IH as (i & a & q & Hq); [intros F; apply N; intros q [<-|HQ]; auto|]. exists (S i), a, q. exact Hq.
Qed.

Lemma inv_progress s : Inv s -> ~ finished s -> exists i t, step i s = Some t.
Proof.
  intros (SH & RD & U1 & U2 & U3) NF.
  destruct (writer s) as [[j []]|] eqn:W.
  - destruct (U2 j eq_refl) as [p Hp]. exists j. unfold step. rewrite Hp. eauto.
  - destruct (U3 j eq_refl) as [p Hp]. destruct (readers s) eqn:R.
    + exists j. unfold step. rewrite Hp, W, Nat.eqb_refl, R. eauto.
    + destruct (reading_pos (threads s)) as (i & q & Hq); [lia|]. exists i. unfold step. rewrite Hq. eauto.
  - destruct (not_finished _ NF) as (i & a & p & Hp). exists i. unfold step. rewrite Hp, W.
    destruct a; eauto.
Qed.

(** bounded runs *)
Lemma size_set i x l p : nth_error l i = Some p -> size (set_nth i x l) + 2 * List.length p = size l + 2 * List.length x.
Proof.
  revert i. induction l as [|q l IH]; intros [|i] H; cbn in H; try discriminate.
  - injection H as ->. unfold set_nth. cbn. lia.
  - specialize (IH i H). unfold set_nth in *. cbn in *. lia.
Qed.
Definition pend (s : state) : nat := match writer s with Some (_, false) => 1 | _ => 0 end.
Definition measure (s : state) : nat := size (threads s) + (1 - pend s).
Lemma size_pos l i a p : nth_error l i = Some (a :: p) -> 2 <= size l.
Proof. revert i. induction l as [|q l IH]; intros [|i] H; cbn in H; try discriminate; [injection H as ->; cbn; lia|]. apply IH in H. cbn. lia. Qed.

Lemma step_measure s t i : step i s = Some t -> measure t < measure s.
Proof.
  unfold step, measure. intros E. destruct (nth_error (threads s) i) as [[|a p]|] eqn:N; try discriminate.
  assert (SP := size_pos _ _ _ _ N). assert (SS := size_set i p _ _ N). cbn [List.length] in SS.
  assert (PS : pend s <= 1) by (unfold pend; destruct (writer s) as [[? []]|]; lia).
  destruct a.
  - destruct (writer s) eqn:W; [discriminate|]. injection E as <-. unfold pend in *. cbn in *. rewrite W in *. lia.
  - injection E as <-. unfold pend in *. cbn in *. lia.
  - destruct (writer s) as [[j b]|] eqn:W.
    + destruct b; [discriminate|]. destruct (j =? i); [|discriminate]. destruct (readers s); [|discriminate].
      injection E as <-. unfold pend in *. cbn in *. rewrite W in *. lia.
    + injection E as <-. unfold pend in *. cbn in *. rewrite W in *. lia.
  - injection E as <-. unfold pend in *. cbn in *. lia.
Qed.

Lemma run_bounded ps t n : reach (init ps) t n -> n <= S (size ps).
Proof.
  intros R. assert (G : n + measure t <= S (size ps)).
  { remember (init ps) as s0 eqn:E0. induction R as [s|s t u i n R IH E]; subst.
    - unfold measure, pend. cbn. lia.
    - specialize (IH eq_refl). assert (D := step_measure _ _ _ E). lia. }
  lia.
Qed.

(** ** the nested requests *)
Lemma rd_flat p : flat p -> flat (rd ++ p). Proof. intros H. now apply f_read. Qed.
Lemma times_flat n p : flat p -> flat (times n rd ++ p).
Proof. intros H. induction n as [|n IH]; [exact H|]. cbn. apply f_read, IH. Qed.
Lemma rd_flat' : flat rd. Proof. apply f_read, f_nil. Qed.

Lemma nested_deadlock p q : (exists n, p = RLock :: times n rd ++ RLock :: q) ->
  exists s n, reach (init [p; [Lock; Unlock]]) s n /\ deadlocked s.
Proof.
  intros [k ->].
  (* run the reader up to its second nested acquisition, then announce the writer *)
  assert (G : exists s n, reach (init [RLock :: times k rd ++ RLock :: q; [Lock; Unlock]]) s n /\
            threads s = [RLock :: q; [Lock; Unlock]] /\ readers s = 1 /\ writer s = None).
  { assert (H0 : forall k' st n0, reach (init [RLock :: times k rd ++ RLock :: q; [Lock; Unlock]]) st n0 ->
       threads st = [times k' rd ++ RLock :: q; [Lock; Unlock]] -> readers st = 1 -> writer st = None ->
       exists s n, reach (init [RLock :: times k rd ++ RLock :: q; [Lock; Unlock]]) s n /\
            threads s = [RLock :: q; [Lock; Unlock]] /\ readers s = 1 /\ writer s = None).
    { induction k' as [|k' IH]; intros st n0 R T RS W.
      - exists st, n0. auto.
      - destruct st as [th rr ww]. cbn in T, RS, W. subst.
        apply (IH (mkState [times k' rd ++ RLock :: q; [Lock; Unlock]] 1 None) (S (S n0))); try reflexivity.
        eapply (r_step _ (mkState [RUnlock :: times k' rd ++ RLock :: q; [Lock; Unlock]] 2 None) _ 0); [|reflexivity].
        eapply (r_step _ _ _ 0); [exact R|]. reflexivity. }
    eapply (H0 k (mkState [times k rd ++ RLock :: q; [Lock; Unlock]] 1 None) 1); try reflexivity.
    eapply (r_step _ _ _ 0); [apply r_refl|]. reflexivity. }
  destruct G as ([th rr ww] & n & R & T & RS & W). cbn in T, RS, W. subst.
  exists (mkState [RLock :: q; [Lock; Unlock]] 1 (Some (1, false))), (S n). split.
  - eapply (r_step _ _ _ 1); [exact R|reflexivity].
  - split.
    + intros [|[|i]]; [reflexivity|reflexivity|]. unfold step. cbn [threads nth_error]. destruct i; reflexivity.
    + intros F. specialize (F (RLock :: q) (or_introl eq_refl)). discriminate.
Qed.

(** a writer inside is alone *)
Lemma alone_reach ps s n : (forall p, In p ps -> flat p) -> reach (init ps) s n -> forall i, writer s = Some (i, true) -> reading (threads s) = 0.
Proof.
  intros F R. remember (init ps) as s0 eqn:E0. induction R as [s|s t u i n R IH E]; [subst; discriminate|].
  specialize (IH E0). subst s. assert (I := inv_reach _ _ _ (inv_init ps F) R). destruct I as (SH & RD & U1 & U2 & U3).
  unfold step in E. destruct (nth_error (threads t) i) as [[|a p]|] eqn:N; try discriminate.
  intros j. destruct a.
  - destruct (writer t); [discriminate|]. injection E as <-. discriminate.
  - injection E as <-. cbn [writer threads]. intros W. specialize (IH j W). assert (Q := reading_set i p _ _ N). cbn [is_read] in Q.
    apply nth_error_split in N as (a & b & N & _). rewrite N, reading_app, reading_cons in IH. cbn [is_read] in IH. lia.
  - destruct (writer t) as [[k []]|] eqn:W; [discriminate| |injection E as <-; discriminate].
    destruct (k =? i); [|discriminate]. destruct (readers t) eqn:Z; [|discriminate]. injection E as <-. cbn [threads writer]. intros _.
    assert (Q := reading_set i p _ _ N). cbn [is_read] in Q.
    assert (SP := SH _ (nth_error_In _ _ N)). assert (exists q, p = Unlock :: q) as (q & ->) by (inversion SP as [? G| |]; subst; destruct (flat_inv_lock _ G) as (q & -> & _); now exists q).
    cbn [is_read] in Q. lia.
  - injection E as <-. discriminate.
Qed.

(** ** Programs of reads *)
Definition unlocks (p : list action) : nat := List.length (filter (fun a => match a with RUnlock => true | _ => false end) p).
Definition locks (p : list action) : nat := List.length (filter (fun a => match a with RLock => true | _ => false end) p).
Fixpoint closing (p : list action) : Prop :=
  match p with [] => True | a :: r => (a = RLock \/ a = RUnlock) /\ locks p <= unlocks p /\ closing r end.
Definition total (f : list action -> nat) (ps : list (list action)) : nat := fold_right (fun p n => f p + n) 0 ps.
Lemma unlocks_app a b : unlocks (a ++ b) = unlocks a + unlocks b.
Proof. unfold unlocks. now rewrite filter_app, app_length. Qed.
Lemma locks_app a b : locks (a ++ b) = locks a + locks b.
Proof. unfold locks. now rewrite filter_app, app_length. Qed.
Lemma balanced_counts p : balanced p -> locks p = unlocks p.
Proof.
  induction 1 as [|p q _ IHp _ IHq]; [reflexivity|]. change (RLock :: p ++ RUnlock :: q) with ([RLock] ++ p ++ [RUnlock] ++ q).
  rewrite !locks_app, !unlocks_app. unfold locks at 1 3, unlocks at 1 3. cbn. lia.
Qed.
Lemma closing_app p : balanced p -> forall q, closing q -> locks q <= unlocks q -> closing (p ++ q).
Proof.
  induction 1 as [|p r Bp IHp Br IHr]; intros q C L; [exact C|]. cbn [app]. rewrite <- app_assoc. cbn [app].
  pose proof (balanced_counts p Bp) as Ep. pose proof (balanced_counts r Br) as Er.
  assert (C1 : closing (RUnlock :: r ++ q)).
  { cbn [closing]. split; [now right|]. split; [|now apply IHr].
    change (RUnlock :: r ++ q) with ([RUnlock] ++ r ++ q). rewrite !locks_app, !unlocks_app. unfold locks at 1, unlocks at 1. cbn. lia. }
  assert (L1 : locks (RUnlock :: r ++ q) <= unlocks (RUnlock :: r ++ q)) by apply C1.
  cbn [closing]. split; [now left|]. split; [|now apply IHp].
  change (RLock :: p ++ RUnlock :: r ++ q) with ([RLock] ++ p ++ [RUnlock] ++ r ++ q). rewrite !locks_app, !unlocks_app. unfold locks at 1 3, unlocks at 1 3. cbn. lia.
Qed.
Lemma balanced_closing p : balanced p -> closing p.
Proof. intro B. rewrite <- (app_nil_r p). apply closing_app; [exact B|exact I|cbn; lia]. Qed.
Lemma balanced_app p : balanced p -> forall q, balanced q -> balanced (p ++ q).
Proof. induction 1 as [|p r Bp IHp Br IHr]; intros q B; [exact B|]. cbn [app]. rewrite <- app_assoc. cbn [app]. apply bal_nest; auto. Qed.
Lemma total_app f a b : total f (a ++ b) = total f a + total f b.
Proof. induction a as [|x a IH]; [reflexivity|]. cbn [app total fold_right]. unfold total in *. lia. Qed.
Lemma total_set f i p q ps : nth_error ps i = Some p -> total f (set_nth i q ps) + f p = total f ps + f q.
Proof.
  intro H. apply nth_error_split in H as (a & b & -> & <-). unfold set_nth. rewrite firstn_app, firstn_all, Nat.sub_diag. cbn [firstn].
  rewrite app_nil_r. rewrite skipn_app. replace (skipn (S (List.length a)) a) with (@nil (list action)) by (symmetry; apply skipn_all2; lia).
  replace (S (List.length a) - List.length a) with 1 by lia. cbn [skipn app]. rewrite !total_app. cbn [total fold_right]. lia.
Qed.
Definition reading_only (s : state) : Prop :=
  writer s = None /\ (forall p, In p (threads s) -> closing p) /\ readers s + total locks (threads s) = total unlocks (threads s).
Lemma closing_total ps : (forall p, In p ps -> closing p) -> total locks ps <= total unlocks ps.
Proof.
  induction ps as [|p ps IH]; intro H; [cbn; lia|]. cbn [total fold_right]. assert (locks p <= unlocks p).
  { pose proof (H p (or_introl eq_refl)) as C. destruct p; [cbn; lia|]. apply C. }
  specialize (IH (fun q Hq => H q (or_intror Hq))). unfold total in IH. lia.
Qed.
Lemma reading_only_step i s t : reading_only s -> step i s = Some t -> reading_only t.
Proof.
  intros (W & C & E) St. unfold step in St. destruct (nth_error (threads s) i) as [p|] eqn:Ni; [|discriminate].
  pose proof (C p (nth_error_In _ _ Ni)) as Cp. destruct p as [|a p]; [discriminate|]. destruct Cp as [[-> | ->] [L Cp]].
  - rewrite W in St. injection St as <-. pose proof (total_set locks i _ p _ Ni) as T1. pose proof (total_set unlocks i _ p _ Ni) as T2.
    change (locks (RLock :: p)) with (S (locks p)) in T1. change (unlocks (RLock :: p)) with (unlocks p) in T2. split; [reflexivity|]. cbn [threads readers]. split; [|lia].
    intros q Hq. destruct (in_set _ _ _ _ Hq) as [->|Hq']; auto.
  - injection St as <-. pose proof (total_set locks i _ p _ Ni) as T1. pose proof (total_set unlocks i _ p _ Ni) as T2.
    change (locks (RUnlock :: p)) with (locks p) in T1. change (unlocks (RUnlock :: p)) with (S (unlocks p)) in T2.
    assert (C' : forall q, In q (set_nth i p (threads s)) -> closing q) by (intros q Hq; destruct (in_set _ _ _ _ Hq) as [->|Hq']; auto).
    pose proof (closing_total _ C') as T3. split; [exact W|]. cbn [threads readers]. split; [exact C'|lia].
Qed.
Lemma reading_only_reach ps s n : (forall p, In p ps -> balanced p) -> reach (init ps) s n -> reading_only s.
Proof.
  intros B R. remember (init ps) as s0. induction R as [|s t u i n R IH E]; subst.
  - split; [reflexivity|]. cbn [threads readers init]. split; [intros p Hp; apply balanced_closing, B, Hp|].
    clear - B. induction ps as [|p ps IH]; [reflexivity|]. cbn [total fold_right]. rewrite (balanced_counts p (B p (or_introl eq_refl))).
    specialize (IH (fun q Hq => B q (or_intror Hq))). unfold total in IH. lia.
  - apply (reading_only_step i t); auto.
Qed.
Lemma balanced_times n p : balanced p -> balanced (times n p).
Proof. intro B. induction n as [|n IH]; [constructor|]. cbn [times]. now apply balanced_app. Qed.
Lemma balanced_under p : balanced p -> balanced (under p).
Proof. intro B. unfold under. apply (bal_nest p []); [exact B|constructor]. Qed.
Lemma balanced_rd : balanced rd.
Proof. apply (bal_nest [] []); constructor. Qed.
