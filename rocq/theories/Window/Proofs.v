From Coq Require Import Sorted.
From Verif Require Import Base Strs.
From Verif.Window Require Import Model Spec.
Open Scope list_scope.

Lemma index_of_spec ts o : forall i, 
  (exists k s, nth_error ts k = Some s /\ holds o s = true /\ index_of ts o i = Z.of_nat (i + k) /\ forall j t, j < k -> nth_error ts j = Some t -> holds o t = false)
  \/ (index_of ts o i = (-1)%Z /\ forall s, In s ts -> holds o s = false).
Proof.
  induction ts as [|s r IH]; intros i; simpl; [right; split; [reflexivity|intros s []]|].
  destruct (holds o s) eqn:H.
  - left. exists 0, s. rewrite Nat.add_0_r. repeat split; auto. intros; lia.
  - destruct (IH (S i)) as [(k & t & N & G & E & M) | [E M]].
    + left. exists (S k), t. repeat split; auto; [now rewrite E, Nat.add_succ_r|]. intros [|j] u L Q; [injection Q as <-; exact H|]. apply (M j u); [lia|exact Q].
    + right. split; [exact E|]. intros t [<- | I]; auto.
Qed.

Lemma holds_iff o s : holds o s = true <-> fst s <= o < snd s.
Proof. unfold holds. rewrite andb_true_iff, Nat.leb_le, Nat.ltb_lt. tauto. Qed.

Lemma token_at_on ts o : on_token ts o -> exists k s, token_at ts o = Z.of_nat k /\ nth_error ts k = Some s /\ fst s <= o < snd s.
Proof.
  intros (s & I & H). unfold token_at. destruct (index_of_spec ts o 0) as [(k & t & N & G & E & _) | [_ M]].
  - exists k, t. split; [exact E|]. split; [exact N|]. now apply holds_iff.
  - apply M in I. apply holds_iff in H. congruence.
Qed.
Lemma token_at_off ts o : ~ on_token ts o -> token_at ts o = (-1)%Z.
Proof.
  intros N. unfold token_at. destruct (index_of_spec ts o 0) as [(k & t & G & H & _) | [E _]]; [|exact E].
  exfalso. apply N. exists t. split; [now apply nth_error_In in G|now apply holds_iff].
Qed.

Section Lay.
Variable ts : list span.
Hypothesis L : layout ts.

Lemma starts_mono i j s t : i <= j -> nth_error ts i = Some s -> nth_error ts j = Some t -> fst s <= fst t.
Proof.
  destruct L as [N D]. intros H A B. destruct (Nat.eq_dec i j) as [->|Q]; [assert (s = t) by congruence; subst; lia|].
  specialize (D i j s t ltac:(lia) A B). specialize (N i s A). lia.
Qed.

(** text that meets the range is of tokens that are not outside *)
Lemma overlap_inside a b x y : on_token ts a -> on_token ts b -> overlaps ts a b x y ->
  outside (token_at ts a) (token_at ts b) x y = false.
Proof.
  intros A B (sx & sy & X & Y & H1 & H2). destruct (token_at_on _ _ A) as (ka & ta & EA & NA & RA). destruct (token_at_on _ _ B) as (kb & tb & EB & NB & RB).
  unfold outside. rewrite EA, EB. apply orb_false_iff. split; apply Z.ltb_ge.
  - destruct (Nat.le_gt_cases x kb) as [H|H]; [lia|]. destruct L as [_ D]. specialize (D kb x tb sx H NB X). lia.
  - destruct (Nat.le_gt_cases ka y) as [H|H]; [lia|]. destruct L as [_ D]. specialize (D y ka sy ta H Y NA). lia.
Qed.
(** and the other way round, if it is the text of some tokens *)
Lemma inside_overlap a b x y : on_token ts a -> on_token ts b -> x < List.length ts -> y < List.length ts ->
  outside (token_at ts a) (token_at ts b) x y = false -> overlaps ts a b x y.
Proof.
  intros A B Lx Ly O. destruct (token_at_on _ _ A) as (ka & ta & EA & NA & RA). destruct (token_at_on _ _ B) as (kb & tb & EB & NB & RB).
  unfold outside in O. rewrite EA, EB in O. apply orb_false_iff in O as [O1 O2]. apply Z.ltb_ge in O1, O2.
  destruct (nth_error ts x) as [sx|] eqn:X; [|apply nth_error_None in X; lia]. destruct (nth_error ts y) as [sy|] eqn:Y; [|apply nth_error_None in Y; lia].
  exists sx, sy. repeat split; auto.
  - assert (fst sx <= fst tb) by (eapply starts_mono; [|exact X|exact NB]; lia). lia.
  - destruct (Nat.eq_dec ka y) as [->|Q]; [assert (ta = sy) by congruence; subst; lia|].
    destruct L as [N D]. specialize (D ka y ta sy ltac:(lia) NA Y). specialize (N y sy Y). lia.
Qed.
End Lay.

Lemma sub_refl {A} (l : list A) : sublist l l.
Proof. induction l; constructor; auto. Qed.
Lemma sub_none {A} (l : list A) : sublist [] l.
Proof. induction l; constructor; auto. Qed.
Lemma sub_app {A} (a b c d : list A) : sublist a b -> sublist c d -> sublist (a ++ c) (b ++ d).
Proof. intros H G. induction H; simpl; try constructor; auto. Qed.

Lemma sub_filter {A} (f : A -> bool) w : forall l, sublist l (filter f w) -> sublist l w.
Proof.
  induction w as [|x w IH]; simpl; intros l H; [exact H|]. destruct (f x); [|constructor; now apply IH].
  inversion H; subst; constructor; now apply IH.
Qed.
Lemma filter_sub {A} (f : A -> bool) l w : (forall i, In i l -> f i = true) -> sublist l w -> sublist l (filter f w).
Proof.
  intros M H. induction H as [|x p q H IH|x p q H IH]; simpl.
  - constructor.
  - rewrite (M x (or_introl eq_refl)). constructor. apply IH. intros i I. apply M. now right.
  - destruct (f x); [constructor|]; auto.
Qed.

Fixpoint tree_ind' (P : tree -> Prop) (HL : forall t own, P (Leaf t own)) (HN : forall own ks, Forall P ks -> P (Node own ks)) (n : tree) : P n :=
  match n with
  | Leaf t own => HL t own
  | Node own ks => HN own ks ((fix go l : Forall P l := match l with [] => Forall_nil P | k :: r => Forall_cons k (tree_ind' P HL HN k) (go r) end) ks)
  end.

Lemma walk_range_eq s e n : walk_range s e n =
  if outside s e (first n) (final n) then [] else match n with Leaf _ own => own | Node own ks => own ++ flat_map (walk_range s e) ks end.
Proof. now destruct n. Qed.

Lemma range_sublist s e n : sublist (walk_range s e n) (walk n).
Proof.
  induction n as [t own|own ks IH] using tree_ind'; rewrite walk_range_eq; destruct (outside _ _ _ _); try apply sub_none; simpl; [apply sub_refl|].
  apply sub_app; [apply sub_refl|]. induction IH; simpl; [constructor|]. now apply sub_app.
Qed.

Lemma sorted_app (a b : list nat) : StronglySorted lt (a ++ b) -> StronglySorted lt a /\ StronglySorted lt b.
Proof.
  induction a as [|x a IH]; simpl; intros H; [split; [constructor|exact H]|].
  inversion H as [|? ? H1 H2]; subst. destruct (IH H1) as [A B]. split; [|exact B]. constructor; [exact A|].
  apply Forall_app in H2. tauto.
Qed.
Lemma sorted_bounds l t : StronglySorted lt l -> In t l -> hd 0 l <= t <= last l 0.
Proof.
  intros S. revert t. induction S as [|x l S IH F]; intros t I; [destruct I|]. split.
  - simpl. destruct I as [-> | I]; [lia|]. rewrite Forall_forall in F. specialize (F t I). lia.
  - destruct l as [|y l]; [destruct I as [-> | []]; simpl; lia|]. change (last (x :: y :: l) 0) with (last (y :: l) 0).
    destruct I as [-> | I]; [|apply IH; exact I]. rewrite Forall_forall in F. specialize (F y (or_introl eq_refl)).
    assert (B := IH y (or_introl eq_refl)). lia.
Qed.

Definition meets (s e : Z) (i : item) : bool := negb (outside s e (i_from i) (i_to i)).

Lemma outside_wider s e a b c d : c <= a -> b <= d -> outside s e a b = false -> outside s e c d = false.
Proof. unfold outside. rewrite !orb_false_iff, !Z.ltb_ge. lia. Qed.

Lemma items_in n i : grown n -> In i (walk n) -> In (i_from i) (tokens n) /\ In (i_to i) (tokens n).
Proof.
  induction n as [t own|own ks IH] using tree_ind'; simpl; intros G I.
  - rewrite Forall_forall in G. destruct (G i I) as [-> ->]. auto.
  - destruct G as (_ & G & GK). apply in_app_or in I as [I | I].
    + rewrite Forall_forall in G. now apply G.
    + apply in_flat_map in I as (k & K & I). rewrite Forall_forall in IH.
      assert (grown k) as GR by (clear -K GK; induction ks as [|x ks IHk]; [destruct K|]; destruct GK; destruct K as [-> | K]; auto).
      destruct (IH k K GR I) as [A B]. split; apply in_flat_map; now exists k.
Qed.

Lemma range_keeps s e n : grown n -> StronglySorted lt (tokens n) -> filter (meets s e) (walk_range s e n) = filter (meets s e) (walk n).
Proof.
  induction n as [t own|own ks IH] using tree_ind'; intros G S; rewrite walk_range_eq.
  - destruct (outside s e (first (Leaf t own)) (final (Leaf t own))) eqn:O; [|reflexivity]. cbn in O. simpl.
    symmetry. simpl in G. clear S. induction G as [|i own [A B] _ IHG]; [reflexivity|]. simpl. unfold meets at 1. rewrite A, B, O. exact IHG.
  - destruct (outside s e (first (Node own ks)) (final (Node own ks))) eqn:O.
    + symmetry. assert (forall i, In i (walk (Node own ks)) -> meets s e i = false) as N.
      { intros i I. destruct (items_in _ i G I) as [A B]. unfold meets. destruct (outside s e (i_from i) (i_to i)) eqn:Q; [reflexivity|].
        exfalso. pose proof (sorted_bounds _ _ S A). pose proof (sorted_bounds _ _ S B). unfold first, final in O.
        rewrite (outside_wider s e (i_from i) (i_to i)) in O; [discriminate|lia|lia|exact Q]. }
      revert N. generalize (walk (Node own ks)). intros l N. induction l as [|i l IHl]; [reflexivity|]. simpl. rewrite (N i (or_introl eq_refl)). apply IHl. intros j J. apply N. now right.
    + simpl. rewrite !filter_app. f_equal. simpl in G, S. destruct G as (_ & _ & GK). clear O.
      induction IH as [|k ks Hk _ IHks]; [reflexivity|]. simpl in *. rewrite !filter_app. destruct GK as [G1 G2].
      apply sorted_app in S as [S1 S2]. rewrite Hk by assumption. f_equal. now apply IHks.
Qed.

Lemma nothing_behind s n : walk_range s (-1) n = [].
Proof. rewrite walk_range_eq. unfold outside. replace (-1 <? Z.of_nat (first n))%Z with true; [reflexivity|]. symmetry. apply Z.ltb_lt. lia. Qed.

Lemma range_nodes s e n i : In i (walk_range s e n) -> exists m, within m n /\ reports m i /\ outside s e (first m) (final m) = false.
Proof.
  induction n as [t own|own ks IH] using tree_ind'; rewrite walk_range_eq; destruct (outside _ _ _ _) eqn:O; try (intros []).
  - intros I. exists (Leaf t own). split; [constructor|]. split; [exact I|exact O].
  - intros I. apply in_app_or in I as [I | I].
    + exists (Node own ks). split; [constructor|]. split; [exact I|exact O].
    + apply in_flat_map in I as (k & K & I). rewrite Forall_forall in IH. destruct (IH k K I) as (m & W & R & Q).
      exists m. split; [now apply within_kid with k|]. split; assumption.
Qed.
Lemma within_tokens m n : within m n -> forall t, In t (tokens m) -> In t (tokens n).
Proof. induction 1 as [|own ks k K _ IH]; intros t T; [exact T|]. simpl. apply in_flat_map. exists k. auto. Qed.
Lemma within_grown m n : within m n -> grown n -> grown m.
Proof.
  induction 1 as [|own ks k K _ IH]; intros G; [exact G|]. apply IH. simpl in G. destruct G as (_ & _ & G).
  clear IH. induction ks as [|x ks IH]; [destruct K|]. simpl in G. destruct G, K as [-> | K]; auto.
Qed.
Lemma tokens_some n : grown n -> tokens n <> [].
Proof.
  induction n as [t own|own ks IH] using tree_ind'; simpl; [discriminate|]. intros (N & _ & G).
  destruct ks as [|k ks]; [congruence|]. simpl in *. inversion IH; subst. destruct G as [G _].
  intros E. apply app_eq_nil in E as [E _]. now apply H1 in G.
Qed.
Lemma first_in n : tokens n <> [] -> In (first n) (tokens n) /\ In (final n) (tokens n).
Proof.
  unfold first, final. intros H. split; [destruct (tokens n); [congruence|now left]|].
  rewrite (app_removelast_last 0 H) at 2. apply in_or_app. right. now left.
Qed.
