From Coq Require Import Ascii String QArith Permutation Sorted.
From Verif Require Import Base.
From Verif.Symbols Require Import Model Spec.
Open Scope list_scope.
Open Scope nat_scope.

(* ---------- order ---------- *)
Lemma ascii_nat_inj x y : nat_of_ascii x = nat_of_ascii y -> x = y.
Proof. intros H. rewrite <- (ascii_nat_embedding x), <- (ascii_nat_embedding y). now rewrite H. Qed.

Lemma lex_spec a b : bytes_ltb a b = true <-> lex_lt a b.
Proof.
  revert b; induction a as [|x a IH]; intros [|y b]; cbn [bytes_ltb].
  - split; [discriminate|inversion 1].
  - split; [constructor|reflexivity].
  - split; [discriminate|inversion 1].
  - destruct (Nat.ltb_spec (nat_of_ascii x) (nat_of_ascii y)) as [H|H].
    + split; [intros _; now apply lex_head|reflexivity].
    + destruct (Nat.eqb_spec (nat_of_ascii x) (nat_of_ascii y)) as [E|E].
      * apply ascii_nat_inj in E. subst y. rewrite IH. split; [now apply lex_tail|].
        inversion 1; subst; [lia|assumption].
      * split; [discriminate|]. inversion 1; subst; lia.
Qed.

Lemma lex_irrefl a : ~ lex_lt a a.
Proof. induction a as [|x a IH]; inversion 1; subst; [lia|auto]. Qed.

Lemma lex_trans a b c : lex_lt a b -> lex_lt b c -> lex_lt a c.
Proof.
  intros H; revert c; induction H; intros c H2; inversion H2; subst;
    try (constructor; fail); try (apply lex_head; lia); try (now apply lex_head).
  apply lex_tail. auto.
Qed.

Lemma lex_total a b : lex_lt a b \/ a = b \/ lex_lt b a.
Proof.
  revert b; induction a as [|x a IH]; intros [|y b]; auto using lex_lt.
  destruct (lt_eq_lt_dec (nat_of_ascii x) (nat_of_ascii y)) as [[H|H]|H].
  - left. now apply lex_head.
  - apply ascii_nat_inj in H. subst y. destruct (IH b) as [H|[->|H]]; auto using lex_lt.
  - right. right. now apply lex_head.
Qed.

Lemma goes_before_spec a b : goes_before a b = true <-> ranks_before a b.
Proof.
  unfold goes_before, ranks_before.
  destruct (Z.eqb_spec (score b) (score a)) as [E|E]; cbn [negb].
  - destruct (Nat.eqb_spec (length (symbol b)) (length (symbol a))) as [E2|E2]; cbn [negb].
    + rewrite lex_spec. intuition lia.
    + rewrite Nat.ltb_lt. intuition lia.
  - rewrite Z.ltb_lt. intuition lia.
Qed.

Lemma rb_irrefl a : ~ ranks_before a a.
Proof. unfold ranks_before. pose proof (lex_irrefl (symbol a)). intuition lia. Qed.

Lemma rb_trans a b c : ranks_before a b -> ranks_before b c -> ranks_before a c.
Proof.
  unfold ranks_before. intros H1 H2.
  destruct H1 as [H1|(H1 & [H1'|(H1' & L1)])], H2 as [H2|(H2 & [H2'|(H2' & L2)])];
    try (left; lia); right; (split; [lia|]); try (left; lia).
  right. split; [lia|]. eapply lex_trans; eassumption.
Qed.

Lemma rb_asym a b : ranks_before a b -> ~ ranks_before b a.
Proof. intros H1 H2. exact (rb_irrefl a (rb_trans _ _ _ H1 H2)). Qed.

Lemma rb_neg_trans a b c : ranks_before a c -> ranks_before a b \/ ranks_before b c.
Proof.
  unfold ranks_before. intros H.
  destruct (Z.lt_trichotomy (score a) (score b)) as [Ha|[Ha|Ha]].
  - right. left. intuition lia.
  - destruct (lt_eq_lt_dec (length (symbol a)) (length (symbol b))) as [[Hl|Hl]|Hl].
    + left. right. auto.
    + destruct (lex_total (symbol a) (symbol b)) as [Hx|[Hx|Hx]].
      * left. right. auto.
      * right. rewrite <- Ha, <- Hx. exact H.
      * right. destruct H as [H|(H & [H'|(H' & L)])]; [left; lia|right; split; [lia|]..].
        -- left. lia.
        -- right. split; [lia|]. eapply lex_trans; eassumption.
    + right. destruct H as [H|(H & [H'|(H' & L)])]; [left; lia|right; split; [lia|]..]; left; lia.
  - left. now left.
Qed.

(* ---------- binary search ---------- *)
Lemma div2_bounds i j : i < j -> i <= Nat.div2 (i + j) < j.
Proof.
  intros H. rewrite Nat.div2_div.
  pose proof (Nat.div_mod (i + j) 2 ltac:(lia)).
  pose proof (Nat.mod_upper_bound (i + j) 2 ltac:(lia)). lia.
Qed.

Lemma search_loop_spec f n fuel i j :
  (forall a b, a <= b -> b < n -> f a = true -> f b = true) ->
  i <= j -> j <= n -> j - i <= fuel ->
  (forall k, k < i -> f k = false) -> (forall k, j <= k -> k < n -> f k = true) ->
  exists r, search_loop fuel f i j = Some r /\ r <= n /\
    (forall k, k < r -> f k = false) /\ (forall k, r <= k -> k < n -> f k = true).
Proof.
  intros Hm. revert i j; induction fuel as [|fuel IH]; intros i j Hij Hjn Hfu Hlo Hhi; cbn [search_loop].
  - assert (i = j) as -> by lia. rewrite Nat.ltb_irrefl. exists j. repeat split; auto.
  - destruct (Nat.ltb_spec i j) as [Hlt|Hge].
    + pose proof (div2_bounds i j Hlt) as [H1 H2]. set (h := Nat.div2 (i + j)) in *.
      destruct (f h) eqn:Ef.
      * apply IH; try lia; auto. intros k Hk Hkn. eapply Hm; [| |exact Ef]; lia.
      * apply IH; try lia; auto. intros k Hk.
        destruct (f k) eqn:Ek; [|reflexivity].
        rewrite (Hm k h) in Ef; [discriminate|lia|lia|assumption].
    + assert (i = j) as -> by lia. exists j. repeat split; auto.
Qed.

(* ---------- store ---------- *)
Lemma last_split {A} (l : list A) d : l <> [] -> firstn (length l - 1) l ++ [last l d] = l.
Proof.
  destruct l as [|x l] using rev_ind; [congruence|]. intros _.
  rewrite last_last, app_length, Nat.add_sub, firstn_app, firstn_all, Nat.sub_diag. cbn.
  now rewrite app_nil_r.
Qed.

Lemma last_skipn {A} (l : list A) d k : k < length l -> last (skipn k l) d = last l d.
Proof.
  revert k; induction l as [|x l IH]; intros k H; cbn in H; [lia|].
  destruct k; [reflexivity|]. cbn [skipn]. rewrite IH by lia.
  destruct l; [cbn in H; lia|reflexivity].
Qed.

Lemma SS_app {A} (R : A -> A -> Prop) l1 l2 :
  StronglySorted R (l1 ++ l2) <->
  StronglySorted R l1 /\ StronglySorted R l2 /\ (forall x y, In x l1 -> In y l2 -> R x y).
Proof.
  induction l1 as [|a l1 IH]; cbn.
  - split; [intros H; split; [constructor|split; [assumption|intros ? ? []]]|tauto].
  - split.
    + intros H. inversion H as [|? ? Hs Hf]; subst. apply IH in Hs as (H1 & H2 & H3).
      apply Forall_app in Hf as [Hf1 Hf2]. repeat split; auto.
      * now constructor.
      * intros x y [->|Hx] Hy; [|now apply H3]. eapply Forall_forall in Hf2; eassumption.
    + intros (H1 & H2 & H3). inversion H1 as [|? ? Hs Hf]; subst. constructor.
      * apply IH. repeat split; auto.
      * apply Forall_app. split; [assumption|]. apply Forall_forall. intros y Hy. auto.
Qed.

Lemma ranked_nth l i j d : ranked l -> i < j -> j < length l ->
  ~ ranks_before (nth j l d) (nth i l d).
Proof.
  unfold ranked. revert i j; induction l as [|x l IH]; intros i j H Hij Hj; cbn in Hj; [lia|].
  inversion H as [|? ? Hs Hf]; subst. destruct j; [lia|]. destruct i; cbn.
  - eapply Forall_forall in Hf; [exact Hf|]. apply nth_In. lia.
  - apply IH; auto; lia.
Qed.

Lemma ranked_mono res si : ranked res ->
  forall a b, a <= b -> b < length res ->
  goes_before si (nth a res zero_info) = true -> goes_before si (nth b res zero_info) = true.
Proof.
  intros Hr a b Hab Hb Ha. destruct (Nat.eq_dec a b) as [->|Hne]; [assumption|].
  apply goes_before_spec in Ha. apply goes_before_spec.
  destruct (rb_neg_trans _ (nth b res zero_info) _ Ha) as [H|H]; [assumption|].
  exfalso. eapply ranked_nth; [exact Hr| | |exact H]; lia.
Qed.

(** effect of a store that is not too low *)
Lemma store_insert res si :
  res <> [] -> ranked res -> too_low res (score si) = false ->
  exists r k, store res si = Some r /\ k < length res /\
    r ++ [last res zero_info] = firstn k res ++ si :: skipn k res /\
    ranked (firstn k res ++ si :: skipn k res).
Proof.
  intros Hne Hr Ht. unfold store. rewrite Ht. unfold sort_search.
  destruct (search_loop_spec (fun i => goes_before si (nth i res zero_info))
              (length res) (length res) 0 (length res)) as (k & Hs & Hk & Hlo & Hhi).
  { intros a b. apply ranked_mono. assumption. }
  all: try lia.
  rewrite Hs.
  assert (Hlast : goes_before si (nth (length res - 1) res zero_info) = true).
  { apply goes_before_spec. left. unfold too_low in Ht. apply Z.leb_gt in Ht.
    assert (nth (length res - 1) res zero_info = last res zero_info) as ->; [|lia].
    destruct res as [|x res] using rev_ind; [congruence|].
    rewrite last_last, app_length, Nat.add_sub, app_nth2, Nat.sub_diag by lia. reflexivity. }
  assert (Hlen : length res <> 0) by (destruct res; [congruence|discriminate]).
  assert (Hkl : k < length res).
  { destruct (Nat.lt_ge_cases k (length res)) as [|Hge]; [assumption|].
    rewrite Hlo in Hlast by lia. discriminate. }
  assert (Nat.ltb k (length res) = true) as -> by now apply Nat.ltb_lt.
  eexists; exists k. split; [reflexivity|]. split; [assumption|]. split.
  - rewrite <- app_assoc. cbn. f_equal. f_equal.
    rewrite <- (last_skipn res zero_info k Hkl).
    replace (length res - 1 - k) with (length (skipn k res) - 1) by (rewrite skipn_length; lia).
    apply last_split. intros E. apply (f_equal (@length _)) in E. rewrite skipn_length in E. cbn in E. lia.
  - unfold ranked in *. rewrite <- (firstn_skipn k res) in Hr.
    apply SS_app in Hr as (H1 & H2 & H3). apply SS_app. split; [assumption|].
    assert (Hlo' : forall x, In x (firstn k res) -> ~ ranks_before si x).
    { intros x Hx. apply (In_nth _ _ zero_info) in Hx as (i & Hi & <-).
      rewrite firstn_length, Nat.min_l in Hi by lia.
      specialize (Hlo i Hi). rewrite <- goes_before_spec.
      rewrite <- (firstn_skipn k res) in Hlo. rewrite app_nth1 in Hlo by (rewrite firstn_length; lia).
      congruence. }
    assert (Hhi' : forall x, In x (skipn k res) -> ranks_before si x).
    { intros x Hx. apply (In_nth _ _ zero_info) in Hx as (i & Hi & <-).
      rewrite skipn_length in Hi.
      specialize (Hhi (k + i) ltac:(lia) ltac:(lia)). apply goes_before_spec in Hhi.
      rewrite <- (firstn_skipn k res) in Hhi. rewrite app_nth2 in Hhi by (rewrite firstn_length; lia).
      rewrite firstn_length, Nat.min_l in Hhi by lia.
      now replace (k + i - k) with i in Hhi by lia. }
    split.
    + constructor; [assumption|]. apply Forall_forall. intros y Hy. apply rb_asym. auto.
    + intros x y Hx [<-|Hy]; auto.
Qed.

Record SInv (K : nat) (l res : list info) : Prop := {
  s_len : length res = K;
  s_ranked : ranked res;
  s_nonneg : forall x, In x res -> (0 <= score x)%Z;
  s_best : exists d, Permutation (filter positive res ++ d) (filter positive l) /\
             (d <> [] -> filter positive res = res) /\
             (forall x y, In x d -> In y res -> (score x <= score y)%Z)
}.

Lemma ranked_last res x : ranked res -> In x res -> (score (last res zero_info) <= score x)%Z.
Proof.
  destruct res as [|y res] using rev_ind; [intros _ []|]. clear IHres.
  rewrite last_last. intros H Hx. apply SS_app in H as (_ & _ & H).
  apply in_app_or in Hx as [Hx|[->|[]]]; [|lia].
  specialize (H x y Hx (or_introl eq_refl)). unfold ranks_before in H. lia.
Qed.

Lemma init_SInv K : 0 < K -> SInv K [] (init_store K).
Proof.
  intros HK. unfold init_store. constructor.
  - apply repeat_length.
  - unfold ranked. induction K as [|[|K] IH]; [constructor|cbn; constructor; constructor|].
    change (repeat zero_info (S (S K))) with (zero_info :: repeat zero_info (S K)).
    constructor; [apply IH; lia|]. apply Forall_forall.
    intros x Hx. apply repeat_spec in Hx. subst. apply rb_irrefl.
  - intros x Hx. apply repeat_spec in Hx. subst. cbn. lia.
  - exists []. cbn. rewrite app_nil_r. split; [|split; [congruence|intros ? ? []]].
    assert (filter positive (repeat zero_info K) = []) as ->; [|constructor].
    clear HK. induction K as [|K IH]; [reflexivity|exact IH].
Qed.

Lemma filter_all_pos l : (forall x, In x l -> (0 < score x)%Z) -> filter positive l = l.
Proof.
  induction l as [|x l IH]; cbn; [reflexivity|]. intros H.
  unfold positive at 1. rewrite (proj2 (Z.ltb_lt _ _)) by (apply H; now left).
  f_equal. apply IH. intros. apply H. now right.
Qed.

Lemma filter_app_pos l1 l2 : filter positive (l1 ++ l2) = filter positive l1 ++ filter positive l2.
Proof. apply filter_app. Qed.

Lemma Permutation_filter {A} (f : A -> bool) l l' : Permutation l l' -> Permutation (filter f l) (filter f l').
Proof.
  induction 1; cbn; auto.
  - destruct (f x); auto.
  - destruct (f x), (f y); auto. constructor.
  - etransitivity; eassumption.
Qed.

Lemma store_SInv K l res si : 0 < K -> SInv K l res ->
  exists r, store res si = Some r /\ SInv K (l ++ [si]) r.
Proof.
  intros HK [Hlen Hr Hnn (d & Hp & Hfull & Hle)].
  assert (Hne : res <> []) by (intros ->; cbn in Hlen; lia).
  assert (HinL : In (last res zero_info) res).
  { rewrite <- (last_split res zero_info Hne) at 2. apply in_or_app. right. now left. }
  destruct (too_low res (score si)) eqn:Et.
  - exists res. unfold store. rewrite Et. split; [reflexivity|]. constructor; auto.
    apply Z.leb_le in Et. rewrite filter_app_pos. cbn [filter].
    destruct (positive si) eqn:Ep.
    + apply Z.ltb_lt in Ep. exists (d ++ [si]). split; [|split].
      * rewrite app_assoc. now apply Permutation_app_tail.
      * intros _. apply filter_all_pos. intros x Hx. pose proof (ranked_last _ _ Hr Hx). lia.
      * intros x y Hx Hy. apply in_app_or in Hx as [Hx|[<-|[]]]; [auto|].
        pose proof (ranked_last _ _ Hr Hy). lia.
    + exists d. rewrite app_nil_r. auto.
  - destruct (store_insert res si Hne Hr Et) as (r & k & Hs & Hk & Happ & Hr2).
    exists r. split; [exact Hs|].
    apply Z.leb_gt in Et. pose proof (Hnn _ HinL) as HL0.
    assert (Hperm : Permutation (r ++ [last res zero_info]) (res ++ [si])).
    { rewrite Happ. rewrite <- Permutation_middle. rewrite (firstn_skipn k res).
      apply Permutation_cons_append. }
    assert (Hsub : forall x, In x r -> In x res \/ x = si).
    { intros x Hx. assert (Hx' : In x (res ++ [si])).
      { eapply Permutation_in; [exact Hperm|]. apply in_or_app. now left. }
      apply in_app_or in Hx' as [|[|[]]]; auto. }
    constructor.
    + apply (f_equal (@length _)) in Happ. rewrite !app_length in Happ. cbn in Happ.
      rewrite firstn_length, skipn_length in Happ. lia.
    + unfold ranked in *. rewrite <- Happ in Hr2. now apply SS_app in Hr2.
    + intros x Hx. destruct (Hsub x Hx) as [H| ->]; [auto|lia].
    + (* dropped element *)
      assert (Hsi : positive si = true) by (apply Z.ltb_lt; lia).
      rewrite filter_app_pos. cbn [filter]. rewrite Hsi.
      pose proof (Permutation_filter positive _ _ Hperm) as Hpf.
      rewrite !filter_app_pos in Hpf. cbn [filter] in Hpf. rewrite Hsi in Hpf.
      destruct (positive (last res zero_info)) eqn:EL.
      * exists (last res zero_info :: d). split; [|split].
        -- change (last res zero_info :: d) with ([last res zero_info] ++ d).
           rewrite app_assoc, Hpf, <- app_assoc. cbn.
           rewrite <- Permutation_middle. rewrite <- Permutation_cons_append. constructor. exact Hp.
        -- intros _. apply Z.ltb_lt in EL. apply filter_all_pos. intros x Hx.
           destruct (Hsub x Hx) as [H| ->]; [|lia]. pose proof (ranked_last _ _ Hr H). lia.
        -- intros x y Hx Hy. destruct Hx as [<-|Hx].
           ++ destruct (Hsub y Hy) as [H| ->]; [now apply ranked_last|lia].
           ++ destruct (Hsub y Hy) as [H| ->]; [auto|]. specialize (Hle x _ Hx HinL). lia.
      * rewrite app_nil_r in Hpf. exists d. split; [|split].
        -- rewrite Hpf, <- app_assoc. cbn. rewrite <- Permutation_middle, <- Permutation_cons_append.
           constructor. exact Hp.
        -- intros Hd. specialize (Hfull Hd).
           assert (In (last res zero_info) (filter positive res)) by now rewrite Hfull.
           apply filter_In in H as [_ H]. congruence.
        -- intros x y Hx Hy. destruct (Hsub y Hy) as [H| ->]; [auto|]. specialize (Hle x _ Hx HinL). lia.
Qed.

Lemma store_all_SInv K l0 l res : 0 < K -> SInv K l0 res ->
  exists r, store_all res l = Some r /\ SInv K (l0 ++ l) r.
Proof.
  intros HK. revert l0 res; induction l as [|x l IH]; intros l0 res H; cbn.
  - rewrite app_nil_r. eauto.
  - destruct (store_SInv K l0 res x HK H) as (r & -> & Hr).
    destruct (IH _ _ Hr) as (r' & Hs & Hr'). exists r'. split; [assumption|].
    now rewrite <- app_assoc in Hr'.
Qed.

Lemma results_filter {B} (resolve : info -> option B) res :
  ranked res ->
  results resolve res =
  flat_map (fun si => match resolve si with Some x => [x] | None => [] end) (filter positive res).
Proof.
  unfold ranked. induction res as [|x res IH]; intros H; cbn; [reflexivity|].
  inversion H as [|? ? Hs Hf]; subst. unfold positive at 1.
  destruct (Z.leb_spec (score x) 0) as [Hx|Hx].
  - rewrite (proj2 (Z.ltb_ge _ _)) by lia.
    assert (filter positive res = []) as ->; [|reflexivity].
    clear IH Hs H. induction res as [|y res IH]; cbn; [reflexivity|].
    inversion Hf as [|? ? Hy Hf']; subst. unfold positive at 1.
    rewrite (proj2 (Z.ltb_ge _ _)); [auto|]. unfold ranks_before in Hy. lia.
  - rewrite (proj2 (Z.ltb_lt _ _)) by lia. cbn. rewrite IH by assumption.
    destruct (resolve x); reflexivity.
Qed.

Lemma ranked_filter f l : ranked l -> ranked (filter f l).
Proof.
  unfold ranked. induction l as [|x l IH]; cbn; [auto|]. intros H.
  inversion H as [|? ? Hs Hf]; subst. destruct (f x); auto. constructor; auto.
  apply Forall_forall. intros y Hy. apply filter_In in Hy. eapply Forall_forall in Hf; [exact Hf|tauto].
Qed.

(** the property lemma *)
Lemma store_all_spec K l : 0 < K ->
  exists res sel, store_all (init_store K) l = Some res /\
    ranked sel /\ best_selection K l sel /\
    forall B (resolve : info -> option B),
      results resolve res =
      flat_map (fun si => match resolve si with Some x => [x] | None => [] end) sel.
Proof.
  intros HK. destruct (store_all_SInv K [] l _ HK (init_SInv K HK)) as (res & Hs & [Hlen Hr Hnn (d & Hp & Hf & Hle)]).
  cbn [app] in Hp. exists res, (filter positive res). split; [assumption|]. split; [now apply ranked_filter|]. split.
  - exists d. split; [assumption|]. split.
    + rewrite <- Hlen. clear. induction res as [|x res IH]; cbn; [lia|]. destruct (positive x); cbn; lia.
    + split; [intros Hd; now rewrite (Hf Hd)|]. intros x y Hx Hy. apply filter_In in Hy. now apply Hle.
  - intros B resolve. now apply results_filter.
Qed.

(* ---------- queries ---------- *)
Lemma has_prefix_spec s p : has_prefix s p = true <-> exists r, s = p ++ r.
Proof.
  revert s; induction p as [|x p IH]; intros s; cbn.
  - split; [intros _; now exists s|destruct s; reflexivity].
  - destruct s as [|y s]; [split; [discriminate|intros [r H]; discriminate]|].
    cbn [has_prefix]. rewrite andb_true_iff, IH, Ascii.eqb_eq. split.
    + intros [-> [r ->]]. now exists r.
    + intros [r [= -> ->]]. eauto.
Qed.

Lemma has_prefix_empty s : has_prefix s [] = true.
Proof. destruct s; reflexivity. Qed.

Lemma has_suffix_spec s p : has_suffix s p = true <-> exists l, s = l ++ p.
Proof.
  unfold has_suffix. rewrite has_prefix_spec. split; intros [r H].
  - exists (rev r). apply (f_equal (@rev _)) in H. rewrite rev_involutive, rev_app_distr, rev_involutive in H.
    assumption.
  - exists (rev r). rewrite H. now rewrite rev_app_distr.
Qed.

Lemma last_index_spec s p :
  (exists i, last_index s p = Some i) <-> exists l r, s = l ++ p ++ r.
Proof.
  induction s as [|x s IH]; cbn [last_index].
  - destruct p as [|y p].
    + split; [intros _; now exists [], []|intros _; now exists 0].
    + split; [intros [i H]; discriminate|intros (l & r & H)]. destruct l; discriminate.
  - destruct (last_index s p) as [i|] eqn:E.
    + split; [intros _|intros _; now exists (S i)].
      destruct (proj1 IH (ex_intro _ i eq_refl)) as (l & r & ->). now exists (x :: l), r.
    + destruct (has_prefix (x :: s) p) eqn:Eh.
      * split; [intros _|intros _; now exists 0].
        apply has_prefix_spec in Eh as [r Hr]. exists [], r. exact Hr.
      * split; [intros [i H]; discriminate|]. intros (l & r & H).
        destruct l as [|z l].
        -- cbn in H. rewrite (proj2 (has_prefix_spec (x :: s) p)) in Eh; [discriminate|now exists r].
        -- injection H as -> H. destruct (proj2 IH) as [i Hi]; [now exists l, r|congruence].
Qed.

Lemma lower_char_id c : lower_char c = c <-> ~ (65 <= nat_of_ascii c <= 90).
Proof.
  unfold lower_char. set (n := nat_of_ascii c).
  destruct (Nat.leb_spec 65 n), (Nat.leb_spec n 90); cbn; try (split; [lia|reflexivity]).
  split; [|lia]. intros E. apply (f_equal nat_of_ascii) in E.
  rewrite nat_ascii_embedding in E by lia. fold n in E. lia.
Qed.

Lemma to_lower_id q : bytes_eqb (to_lower q) q = true <-> no_upper q.
Proof.
  unfold bytes_eqb, no_upper, to_lower. destruct (list_eq_dec ascii_dec (map lower_char q) q) as [E|E].
  - split; [intros _|reflexivity]. induction q as [|x q IH]; [intros c []|].
    injection E as E1 E2. intros c [<-|Hc]; [now apply lower_char_id|now apply IH].
  - split; [discriminate|]. intros H. elim E. clear E.
    induction q as [|x q IH]; cbn; [reflexivity|]. f_equal.
    + apply lower_char_id. apply H. now left.
    + apply IH. intros c Hc. apply H. now right.
Qed.

Lemma lower_char_spec c d : (if existsb (Ascii.eqb c) (list_ascii_of_string "ABCDEFGHIJKLMNOPQRSTUVWXYZ") then nat_of_ascii d = nat_of_ascii c + 32 else d = c) <-> d = lower_char c.
Proof.
  assert (E : existsb (Ascii.eqb c) (list_ascii_of_string "ABCDEFGHIJKLMNOPQRSTUVWXYZ") = (Nat.leb 65 (nat_of_ascii c) && Nat.leb (nat_of_ascii c) 90)%bool) by (destruct c as [[] [] [] [] [] [] [] []]; reflexivity).
  rewrite E. unfold lower_char. destruct (Nat.leb_spec 65 (nat_of_ascii c)), (Nat.leb_spec (nat_of_ascii c) 90); cbn [andb]; try reflexivity. split.
  - intro H1. rewrite <- H1. symmetry. apply ascii_nat_embedding.
  - intros ->. apply nat_ascii_embedding. lia.
Qed.
Lemma in_lower_case_spec s : forall s', in_lower_case s s' <-> s' = to_lower s.
Proof.
  unfold in_lower_case, to_lower. induction s as [|c s IH]; intro s'; cbn [map].
  - split; [now inversion 1|intros ->; constructor].
  - split.
    + intro F. destruct s' as [|d s']; [inversion F|]. inversion F as [|? ? ? ? H F']; subst. clear F. rename F' into F. apply IH in F. apply lower_char_spec in H. congruence.
    + intros ->. constructor; [now apply lower_char_spec|]. now apply IH.
Qed.
Lemma subject_spec q s s' :
  subject q s s' <-> s' = if bytes_eqb (to_lower q) q then to_lower s else s.
Proof.
  unfold subject. rewrite <- to_lower_id, in_lower_case_spec. destruct (bytes_eqb (to_lower q) q).
  - split; [intros [[_ H]|[H _]]; [assumption|congruence]|intros; left; auto].
  - split; [intros [[H _]|[_ H]]; [discriminate|assumption]|intros; right; split; auto; discriminate].
Qed.

Lemma pos01 : (0 < 1)%Q. Proof. reflexivity. Qed.
Lemma npos00 : ~ (0 < 0)%Q. Proof. discriminate. Qed.

Lemma hd_prefix f c : has_prefix f [c] = true <-> hd_error f = Some c.
Proof.
  destruct f as [|x f]; cbn [has_prefix hd_error]; [split; discriminate|].
  rewrite has_prefix_empty, andb_true_r, Ascii.eqb_eq. split; [now intros <-|now intros [= ->]].
Qed.

Lemma field_matcher_spec fuzzy f s :
  (0 < snd (field_matcher fuzzy f s))%Q <-> field_matches fuzzy f s.
Proof.
  unfold field_matcher.
  destruct (has_prefix f ["^"%char]) eqn:E1.
  { apply hd_prefix in E1. destruct f as [|x p]; [discriminate|]. injection E1 as ->.
    cbn [tl]. unfold smart_case, match_prefix.
    set (s' := if bytes_eqb (to_lower p) p then to_lower s else s).
    destruct (has_prefix s' p) eqn:Ep; cbn [snd].
    - split; [intros _|intros _; apply pos01]. apply has_prefix_spec in Ep as [r Hr].
      econstructor; [apply subject_spec; reflexivity|exact Hr].
    - split; [intros H; elim (npos00 H)|]. intros H. exfalso.
      inversion H as [p0 s0 s1 r Hs Hr| |p0 s0 s1 l Hh1 Hh2 Hs Hl Heq|f0 s0 Hh]; subst.
      + apply subject_spec in Hs. fold s' in Hs.
        rewrite (proj2 (has_prefix_spec s' p)) in Ep; [discriminate|exists r; now symmetry].
      + rewrite Heq in Hh1. now apply Hh1.
      + now apply Hh. }
  destruct (has_prefix f ["'"%char]) eqn:E2.
  { apply hd_prefix in E2. destruct f as [|x p]; [discriminate|]. injection E2 as ->.
    cbn [tl]. unfold smart_case, match_exact.
    set (s' := if bytes_eqb (to_lower p) p then to_lower s else s).
    destruct (last_index s' p) as [i|] eqn:Ep; cbn [snd].
    - split; [intros _|intros _; apply pos01].
      destruct (proj1 (last_index_spec s' p)) as (l & r & Hr); [now exists i|].
      econstructor; [apply subject_spec; reflexivity|exact Hr].
    - split; [intros H; elim (npos00 H)|]. intros H. exfalso.
      inversion H as [|p0 s0 s1 l r Hs Hr|p0 s0 s1 l Hh1 Hh2 Hs Hl Heq|f0 s0 Hh Hh']; subst.
      + apply subject_spec in Hs. fold s' in Hs.
        destruct (proj2 (last_index_spec s' p)) as [i Hi]; [exists l, r; now symmetry|congruence].
      + rewrite Heq in Hh2. now apply Hh2.
      + now apply Hh'. }
  assert (N1 : hd_error f <> Some "^"%char) by (rewrite <- hd_prefix; congruence).
  assert (N2 : hd_error f <> Some "'"%char) by (rewrite <- hd_prefix; congruence).
  destruct (has_suffix f ["$"%char]) eqn:E3.
  { apply has_suffix_spec in E3 as [p ->].
    assert (firstn (length (p ++ ["$"%char]) - 1) (p ++ ["$"%char]) = p) as ->.
    { rewrite app_length, Nat.add_sub, firstn_app, Nat.sub_diag, firstn_all. cbn. apply app_nil_r. }
    cbn zeta. unfold smart_case, match_suffix.
    set (s' := if bytes_eqb (to_lower p) p then to_lower s else s).
    destruct (has_suffix s' p) eqn:Ep; cbn [snd].
    - split; [intros _|intros _; apply pos01]. apply has_suffix_spec in Ep as [l Hl].
      eapply fm_suffix; [assumption|assumption|apply subject_spec; reflexivity|exact Hl].
    - split; [intros H; elim (npos00 H)|]. intros H. exfalso.
      inversion H as [p0 s0 s1 r Hs Hr Heq|p0 s0 s1 l r Hs Hr Heq|p0 s0 s1 l Hh1 Hh2 Hs Hl Heq|f0 s0 Hh Hh' Hns]; subst.
      + rewrite <- Heq in N1. now apply N1.
      + rewrite <- Heq in N2. now apply N2.
      + apply app_inj_tail in Heq as [-> _]. apply subject_spec in Hs. fold s' in Hs.
        rewrite (proj2 (has_suffix_spec s' p)) in Ep; [discriminate|exists l; now symmetry].
      + now apply (Hns p). }
  split.
  - intros H. apply fm_fuzzy; auto. intros p ->.
    rewrite (proj2 (has_suffix_spec (p ++ ["$"%char]) ["$"%char])) in E3; [discriminate|now exists p].
  - intros H. inversion H as [p0 s0 s1 r Hs Hr Heq|p0 s0 s1 l r Hs Hr Heq|p0 s0 s1 l Hh1 Hh2 Hs Hl Heq|]; subst; auto.
    + cbn in N1. congruence.
    + cbn in N2. congruence.
    + rewrite (proj2 (has_suffix_spec (p0 ++ ["$"%char]) ["$"%char])) in E3; [discriminate|now exists p0].
Qed.

Lemma field_matcher_nonneg fuzzy f s :
  (forall g x, (0 <= snd (fuzzy g x))%Q) -> (0 <= snd (field_matcher fuzzy f s))%Q.
Proof.
  intros H. unfold field_matcher, smart_case, match_prefix, match_exact, match_suffix.
  destruct (has_prefix f ["^"%char]); [|destruct (has_prefix f ["'"%char]); [|destruct (has_suffix f ["$"%char]); [|apply H]]].
  - destruct (has_prefix _ _); cbn; discriminate.
  - destruct (last_index _ _); cbn; discriminate.
  - destruct (has_suffix _ _); cbn; discriminate.
Qed.

Lemma combo_pos ms s : (forall m, In m ms -> (0 <= snd (m s))%Q) ->
  ((0 < snd (combo ms s))%Q <-> forall m, In m ms -> (0 < snd (m s))%Q).
Proof.
  unfold combo. intros Hnn.
  assert (G : forall first sc, (0 <= sc)%Q ->
    ((0 < snd (fold_left (fun '(first, sc) (m : matcher) => let '(i, x) := m s in
       ((if Z.ltb i first then i else first), (sc * x)%Q)) ms (first, sc)))%Q
     <-> (0 < sc)%Q /\ forall m, In m ms -> (0 < snd (m s))%Q)).
  { induction ms as [|m ms IH]; intros first sc Hsc; cbn [fold_left].
    - cbn. split; [intros; split; [assumption|intros ? []]|tauto].
    - destruct (m s) as [i x] eqn:Em.
      assert (Hx : (0 <= x)%Q) by (specialize (Hnn m (or_introl eq_refl)); now rewrite Em in Hnn).
      rewrite IH; [|intros m' Hm'; apply Hnn; now right|now apply Qmult_le_0_compat].
      split.
      + intros [Hp Hall].
        assert (Hs0 : (0 < sc)%Q).
        { destruct (Qlt_le_dec 0 sc) as [|Hle]; [assumption|].
          assert (Hz : sc == 0) by now apply Qle_antisym. rewrite Hz, Qmult_0_l in Hp. elim (npos00 Hp). }
        assert (Hx0 : (0 < x)%Q).
        { destruct (Qlt_le_dec 0 x) as [|Hle]; [assumption|].
          assert (Hz : x == 0) by now apply Qle_antisym. rewrite Hz, Qmult_0_r in Hp. elim (npos00 Hp). }
        split; [assumption|]. intros m' [<-|Hm']; [now rewrite Em|auto].
      + intros [Hp Hall]. split; [|intros; apply Hall; now right].
        specialize (Hall m (or_introl eq_refl)). rewrite Em in Hall. cbn in Hall.
        apply Qmult_lt_0_compat; assumption. }
  rewrite G by discriminate. split; [tauto|]. intros; split; [apply pos01|assumption].
Qed.

Lemma fields_aux_word cur w s :
  (forall c, In c w -> space_char c = false) ->
  fields_aux cur (w ++ s) = fields_aux (rev w ++ cur) s.
Proof.
  revert cur; induction w as [|c w IH]; intros cur H; cbn; [reflexivity|].
  rewrite H by now left. rewrite IH by (intros; apply H; now right).
  now rewrite <- app_assoc.
Qed.

Lemma white_space c : space_char c = true <-> white c.
Proof. destruct c as [[] [] [] [] [] [] [] []]; vm_compute; (split; [try discriminate; tauto|intuition congruence]). Qed.
Lemma not_white c : space_char c = false <-> ~ white c.
Proof. rewrite <- white_space. destruct (space_char c); split; congruence. Qed.

Lemma words_fields q ws : words_of q ws -> ws = fields q.
Proof.
  unfold fields. induction 1 as [|c s ws Hc Hs IH|w s ws [Hw Hws] Hs Hwo IH].
  - reflexivity.
  - cbn. apply white_space in Hc. now rewrite Hc.
  - rewrite fields_aux_word by (intros c Ic; apply not_white; auto). rewrite app_nil_r.
    assert (Hr : rev w <> []).
    { intros E. apply (f_equal (@rev _)) in E. rewrite rev_involutive in E. now apply Hw. }
    destruct Hs as [->|(c & s' & -> & Hc)].
    + cbn in *. destruct (rev w) eqn:E; [congruence|]. rewrite <- E, rev_involutive. now rewrite IH.
    + apply white_space in Hc. cbn in *. rewrite Hc in *. destruct (rev w) eqn:E; [congruence|]. rewrite <- E, rev_involutive.
      now rewrite IH.
Qed.

Lemma fields_words_aux s : forall cur, (forall c, In c cur -> space_char c = false) ->
  words_of (rev cur ++ s) (fields_aux cur s).
Proof.
  induction s as [|c s IH]; intros cur Hcur; cbn.
  - rewrite app_nil_r. destruct cur as [|x cur]; [constructor|].
    rewrite <- (app_nil_r (rev (x :: cur))) at 1. apply wo_word; [|now left|constructor].
    split; [|intros y Hy; apply in_rev in Hy; apply not_white; auto].
    intros E. apply (f_equal (@length _)) in E. rewrite rev_length in E. discriminate.
  - destruct (space_char c) eqn:Ec.
    + destruct cur as [|x cur].
      * cbn. constructor; [now apply white_space|]. apply (IH []). intros y [].
      * apply wo_word.
        -- split; [|intros y Hy; apply in_rev in Hy; apply not_white; auto].
           intros E. apply (f_equal (@length _)) in E. rewrite rev_length in E. discriminate.
        -- right. exists c, s. split; [reflexivity|now apply white_space].
        -- constructor; [now apply white_space|]. apply (IH []). intros y [].
    + specialize (IH (c :: cur)). cbn [rev] in IH. rewrite <- app_assoc in IH. apply IH.
      intros y [<-|Hy]; auto.
Qed.

Lemma fields_words q : words_of q (fields q).
Proof. apply (fields_words_aux q []). intros c []. Qed.

Lemma parse_query_spec fuzzy q s ws :
  (forall g x, (0 <= snd (fuzzy g x))%Q) ->
  words_of q ws ->
  ((0 < snd (parse_query fuzzy q s))%Q <->
   ws <> [] /\ forall f, In f ws -> field_matches fuzzy f s).
Proof.
  intros Hnn Hw. apply words_fields in Hw. subst ws. unfold parse_query.
  destruct (fields q) as [|f1 [|f2 fs]] eqn:E; cbn [map].
  - split; [intros H; elim (npos00 H)|intros [H _]; congruence].
  - rewrite field_matcher_spec. split.
    + intros H. split; [discriminate|]. intros f [<-|[]]. assumption.
    + intros [_ H]. apply H. now left.
  - change (field_matcher fuzzy f1 :: field_matcher fuzzy f2 :: map (field_matcher fuzzy) fs)
      with (map (field_matcher fuzzy) (f1 :: f2 :: fs)).
    rewrite combo_pos.
    + split.
      * intros H. split; [discriminate|]. intros f Hf. apply field_matcher_spec. apply H.
        now apply in_map.
      * intros [_ H] m Hm. apply in_map_iff in Hm as (f & <- & Hf). apply field_matcher_spec. auto.
    + intros m Hm. apply in_map_iff in Hm as (f & <- & _). now apply field_matcher_nonneg.
Qed.
