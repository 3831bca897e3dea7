From Verif Require Import Base.
From Verif.Rpc Require Import Model Spec.

Lemma set_nth_length l n r : length (set_nth l n r) = length l.
Proof. revert n; induction l as [|x l IH]; intros [|n]; cbn; auto. Qed.

Lemma set_nth_same l n r : n < length l -> nth_error (set_nth l n r) n = Some r.
Proof. revert n; induction l as [|x l IH]; intros [|n] H; cbn in *; try lia; auto. apply IH. lia. Qed.

Lemma set_nth_other l n m r : n <> m -> nth_error (set_nth l n r) m = nth_error l m.
Proof. revert n m; induction l as [|x l IH]; intros [|n] [|m] H; cbn; auto; try congruence. Qed.

Lemma run_app l t u : run l (t ++ u) = match run l t with Ok l' => run l' u | o => o end.
Proof. revert l; induction t as [|e t IH]; intros l; cbn; [reflexivity|]. destruct (step l e); auto. Qed.

(** Invariant relating state and history. *)
Record Inv (t : list event) (l : list req) : Prop := {
  i_kinds : map streaming l = arrivals t;
  i_bound : forall n, In (Start n) t -> n < length l;
  i_run : forall n r, nth_error l n = Some r ->
            (ph r = Waiting <-> ~ In (Start n) t) /\ (ph r = Replied <-> In (Reply n) t);
  i_chan : forall n r, nth_error l n = Some r ->
            (chan_closed r = true <-> streaming r = true \/ ph r = Replied);
  i_rs : forall n, In (Reply n) t -> In (Start n) t
}.

Lemma nth_lt {A} (l : list A) n x : nth_error l n = Some x -> n < length l.
Proof. intros H. apply nth_error_Some. congruence. Qed.

Lemma in_snoc {A} (x y : A) t : In x (t ++ [y]) <-> In x t \/ x = y.
Proof. rewrite in_app_iff. cbn. intuition. Qed.

Lemma map_set_nth l n s p c p' c' : nth_error l n = Some (mkReq s p c) ->
  map streaming (set_nth l n (mkReq s p' c')) = map streaming l.
Proof.
  revert n; induction l as [|x l IH]; intros [|n]; cbn; try discriminate.
  - intros [= ->]. reflexivity.
  - intros H. f_equal. auto.
Qed.

Lemma inv_step t l e l' : Inv t l -> step l e = Ok l' -> Inv (t ++ [e]) l'.
Proof.
  intros [Hk Hb Hr Hc Hrs] Hs. destruct e as [s|n|n]; cbn in Hs.
  - injection Hs as <-. constructor.
    + rewrite map_app, Hk. unfold arrivals. now rewrite flat_map_app.
    + intros n Hn. apply in_snoc in Hn as [Hn|]; [|discriminate]. rewrite app_length. specialize (Hb n Hn). lia.
    + intros n r H. rewrite !in_snoc.
      destruct (Nat.lt_ge_cases n (length l)) as [Hlt|Hge].
      * rewrite nth_error_app1 in H by assumption. destruct (Hr n r H) as [H1 H2].
        rewrite H1, H2. split; [split; [intros Hx [Hy|Hy]; [auto|discriminate]|tauto]|].
        split; [tauto|intros [|]; [assumption|discriminate]].
      * rewrite nth_error_app2 in H by assumption. destruct (n - length l) as [|k] eqn:E; cbn in H; [|destruct k; discriminate].
        injection H as <-. cbn. split.
        -- split; [intros _ [Hx|Hx]; [specialize (Hb n Hx); lia|discriminate]|reflexivity].
        -- split; [discriminate|intros [Hx|Hx]; [apply Hrs in Hx; specialize (Hb n Hx); lia|discriminate]].
    + intros n r H. destruct (Nat.lt_ge_cases n (length l)) as [Hlt|Hge].
      * rewrite nth_error_app1 in H by assumption. eapply Hc; eassumption.
      * rewrite nth_error_app2 in H by assumption. destruct (n - length l) as [|k] eqn:E; cbn in H; [|destruct k; discriminate].
        injection H as <-. cbn. intuition congruence.
    + intros n Hn. rewrite in_snoc in *. destruct Hn as [Hn|]; [left; auto|discriminate].
  - destruct (nth_error l n) as [[s [] c]|] eqn:En; try discriminate.
    destruct (prev_closed l n); [|discriminate]. injection Hs as <-.
    pose proof (nth_lt _ _ _ En) as Hlt. pose proof (Hr n _ En) as [Hr1 Hr2]; cbn in Hr1, Hr2.
    constructor.
    + rewrite (map_set_nth l n s Waiting c) by assumption. rewrite Hk. unfold arrivals. rewrite flat_map_app. cbn. now rewrite app_nil_r.
    + intros m Hm. rewrite set_nth_length. apply in_snoc in Hm as [Hm|[= ->]]; auto.
    + intros m r H. rewrite !in_snoc. destruct (Nat.eq_dec n m) as [<-|Hne].
      * rewrite set_nth_same in H by assumption. injection H as <-. cbn. split.
        -- split; [discriminate|intros Hx; elim Hx; now right].
        -- rewrite <- Hr2. intuition discriminate.
      * rewrite set_nth_other in H by assumption. destruct (Hr m r H) as [H1 H2]. rewrite H1, H2.
        split; [split; [intros Hx [Hy|[= ->]]; auto|tauto]|split; [tauto|intros [|]; [assumption|discriminate]]].
    + intros m r H. destruct (Nat.eq_dec n m) as [<-|Hne].
      * rewrite set_nth_same in H by assumption. injection H as <-. cbn.
        rewrite (Hc n _ En). cbn. intuition discriminate.
      * rewrite set_nth_other in H by assumption. eapply Hc; eassumption.
    + intros m Hm. rewrite in_snoc in *. destruct Hm as [Hm|]; [left; auto|discriminate].
  - destruct (nth_error l n) as [[s [] c]|] eqn:En; try discriminate.
    pose proof (nth_lt _ _ _ En) as Hlt. pose proof (Hr n _ En) as [Hr1 Hr2]; cbn in Hr1, Hr2.
    assert (Hst : In (Start n) t).
    { destruct (in_dec (fun a b : event => ltac:(decide equality; [apply Bool.bool_dec|apply Nat.eq_dec|apply Nat.eq_dec])) (Start n) t) as [|Hx]; [assumption|].
      apply Hr1 in Hx. discriminate. }
    assert (Hl : exists c', l' = set_nth l n (mkReq s Replied c') /\ (c' = true \/ s = true) /\ (s = true -> c' = c)).
    { destruct s; [injection Hs as <-; exists c; auto|]. destruct c; [discriminate|]. injection Hs as <-. exists true.
      split; [reflexivity|]. split; [now left|discriminate]. }
    destruct Hl as (c' & -> & Hc' & Hcs). constructor.
    + rewrite (map_set_nth l n s Running c) by assumption. rewrite Hk. unfold arrivals. rewrite flat_map_app. cbn. now rewrite app_nil_r.
    + intros m Hm. rewrite set_nth_length. apply in_snoc in Hm as [Hm|]; [auto|discriminate].
    + intros m r H. rewrite !in_snoc. destruct (Nat.eq_dec n m) as [<-|Hne].
      * rewrite set_nth_same in H by assumption. injection H as <-. cbn. split.
        -- split; [discriminate|intros Hx; elim Hx; now left].
        -- split; auto.
      * rewrite set_nth_other in H by assumption. destruct (Hr m r H) as [H1 H2]. rewrite H1, H2.
        split; [split; [intros Hx [Hy|]; [auto|discriminate]|tauto]|split; [tauto|intros [|[= ->]]; [assumption|congruence]]].
    + intros m r H. destruct (Nat.eq_dec n m) as [<-|Hne].
      * rewrite set_nth_same in H by assumption. injection H as <-. cbn. split; [auto|].
        intros _. destruct Hc' as [|Hs1]; [assumption|]. rewrite (Hcs Hs1). apply (Hc n _ En). now left.
      * rewrite set_nth_other in H by assumption. eapply Hc; eassumption.
    + intros m Hm. rewrite in_snoc in *. destruct Hm as [Hm|[= ->]]; [left; auto|now left].
Qed.

Lemma inv_init : Inv [] init.
Proof.
  constructor; cbn; try reflexivity; try (intros n []; fail); intros [|n] r; discriminate.
Qed.

Lemma inv_run t l : run init t = Ok l -> Inv t l.
Proof.
  revert l; induction t as [|e t IH] using rev_ind; intros l H.
  - injection H as <-. apply inv_init.
  - rewrite run_app in H. destruct (run init t) as [l0| |] eqn:E; try discriminate.
    cbn in H. destruct (step l0 e) eqn:Es; try discriminate. injection H as <-.
    eapply inv_step; [now apply IH|exact Es].
Qed.

Lemma possible_prefix t u : possible (t ++ u) -> possible t.
Proof. intros [l H]. rewrite run_app in H. destruct (run init t) eqn:E; try discriminate. now exists l0. Qed.

(** no double close *)
Lemma no_panic t : run init t <> Panic.
Proof.
  induction t as [|e t IH] using rev_ind; [discriminate|].
  rewrite run_app. destruct (run init t) as [l| |] eqn:E; [|discriminate|congruence].
  apply inv_run in E. destruct E as [_ _ _ Hc _]. cbn. destruct e as [s|n|n]; cbn; [discriminate| |].
  - destruct (nth_error l n) as [[s [] c]|]; try discriminate. destruct (prev_closed l n); discriminate.
  - destruct (nth_error l n) as [[s [] c]|] eqn:En; try discriminate.
    destruct s; [discriminate|]. destruct c; [|discriminate].
    destruct (proj1 (Hc n _ En) eq_refl); discriminate.
Qed.

(** a started request's predecessor is streaming or has replied *)
Lemma start_prev t n : possible t -> In (Start (S n)) t ->
  kind (arrivals t) n = true \/ only_after t (Reply n) (Start (S n)).
Proof.
  intros Hp Hin. destruct (kind (arrivals t) n) eqn:Ek; [now left|right].
  intros pre post ->.
  assert (Hp1 : possible (pre ++ [Start (S n)])).
  { apply (possible_prefix _ post). now rewrite <- app_assoc. }
  destruct Hp1 as [l1 H1]. rewrite run_app in H1. destruct (run init pre) as [l0| |] eqn:E; try discriminate.
  apply inv_run in E. destruct E as [Hk Hb Hr Hc Hrs]. cbn [run step] in H1.
  destruct (nth_error l0 (S n)) as [[s [] c]|] eqn:En; try discriminate. cbn [prev_closed] in H1.
  destruct (nth_error l0 n) as [r|] eqn:En0; [|discriminate].
  destruct (chan_closed r) eqn:Ec; [|discriminate].
  apply (Hc n r En0) in Ec. destruct Ec as [Ec|Ec]; [|now apply (Hr n r En0)].
  exfalso. unfold kind, arrivals in Ek. rewrite flat_map_app in Ek. fold (arrivals pre) in Ek. rewrite <- Hk in Ek.
  rewrite app_nth1 in Ek by (rewrite map_length; eapply nth_lt; eassumption).
  rewrite (nth_indep _ false (streaming r)) in Ek by (rewrite map_length; eapply nth_lt; eassumption).
  rewrite map_nth in Ek. apply nth_error_nth with (d := r) in En0. rewrite En0 in Ek. congruence.
Qed.

Lemma reply_start t n : possible t -> only_after t (Start n) (Reply n).
Proof.
  intros Hp pre post ->.
  assert (Hp1 : possible (pre ++ [Reply n])).
  { apply (possible_prefix _ post). now rewrite <- app_assoc. }
  destruct Hp1 as [l1 H1]. apply inv_run in H1. destruct H1 as [_ _ _ _ Hrs].
  specialize (Hrs n). rewrite !in_snoc in Hrs. destruct (Hrs (or_intror eq_refl)) as [H|H]; [assumption|discriminate].
Qed.

Lemma kind_prefix t u n : n < length (arrivals t) -> kind (arrivals (t ++ u)) n = kind (arrivals t) n.
Proof. intros H. unfold kind, arrivals in *. rewrite flat_map_app. now apply app_nth1. Qed.

Lemma start_bound t n : possible t -> In (Start n) t -> n < length (arrivals t).
Proof.
  intros [l H] Hin. apply inv_run in H. destruct H as [Hk Hb _ _ _]. rewrite <- Hk, map_length. auto.
Qed.

(** order across a run of non-streaming requests *)
Lemma start_after_run t d : forall i j, j + d = i -> j < i -> possible t ->
  (forall k, j <= k < i -> kind (arrivals t) k = false) ->
  only_after t (Reply j) (Start i).
Proof.
  revert t; induction d as [|d IH]; intros t i j E Hlt Hp Hk; [lia|].
  destruct i as [|m]; [lia|].
  intros pre post ->. set (T := pre ++ Start (S m) :: post) in *.
  assert (Hin : In (Start (S m)) T) by (apply in_or_app; right; now left).
  destruct (start_prev T m Hp Hin) as [H|H]; [rewrite Hk in H by lia; discriminate|].
  assert (Hrm : In (Reply m) pre) by (eapply H; reflexivity).
  destruct (Nat.eq_dec j m) as [->|Hne]; [assumption|].
  apply in_split in Hrm as (p1 & p2 & ->).
  assert (Hsm : In (Start m) p1).
  { eapply (reply_start T m Hp). unfold T. rewrite <- app_assoc. reflexivity. }
  apply in_split in Hsm as (q1 & q2 & ->).
  assert (In (Reply j) q1).
  { eapply (IH T m j); [lia|lia|assumption| |]. { intros k Hkk. apply Hk. lia. }
    unfold T. rewrite <- !app_assoc. reflexivity. }
  rewrite <- app_assoc. apply in_or_app. now left.
Qed.

(* ---------- the schedule that overtakes ---------- *)
Fixpoint drain (k n : nat) : list event :=
  match n with 0 => [] | S n' => Start k :: Reply k :: drain (S k) n' end.

Lemma run_arrives ks l : run l (map Arrive ks) = Ok (l ++ map (fun s => mkReq s Waiting s) ks).
Proof.
  revert l; induction ks as [|s ks IH]; intros l; cbn; [now rewrite app_nil_r|].
  rewrite IH, <- app_assoc. reflexivity.
Qed.

Lemma arrivals_map ks : arrivals (map Arrive ks) = ks.
Proof. induction ks as [|k ks IH]; [reflexivity|]. unfold arrivals in *. cbn [map flat_map app]. now rewrite IH. Qed.

Lemma run_drain n : forall k l, prev_closed l k = true ->
  (forall m, k <= m < k + n -> exists s, nth_error l m = Some (mkReq s Waiting s)) ->
  exists l', run l (drain k n) = Ok l' /\ prev_closed l' (k + n) = true /\ length l' = length l /\
    (forall m, k + n <= m -> nth_error l' m = nth_error l m).
Proof.
  induction n as [|n IH]; intros k l Hp Hw; cbn [drain run].
  - exists l. rewrite Nat.add_0_r. auto.
  - destruct (Hw k ltac:(lia)) as [s Hs].
    pose proof (nth_lt _ _ _ Hs) as Hlt.
    cbn [step]. rewrite Hs, Hp. cbn [run step]. rewrite set_nth_same by assumption.
    set (l1 := set_nth l k (mkReq s Running s)).
    set (l2 := set_nth l1 k (mkReq s Replied true)).
    match goal with |- context [if s then ?A else ?B] =>
      replace (if s then A else B) with (Ok l2) by (unfold l2, l1; destruct s; reflexivity) end.
    assert (Ho : forall m, m <> k -> nth_error l2 m = nth_error l m).
    { intros m Hm. unfold l2, l1. rewrite !set_nth_other by congruence. reflexivity. }
    destruct (IH (S k) l2) as (l' & Hr & Hpc & Hlen & Hrest).
    + cbn. unfold l2. rewrite set_nth_same by (unfold l1; rewrite set_nth_length; assumption). reflexivity.
    + intros m Hm. rewrite Ho by lia. apply Hw. lia.
    + exists l'. split; [assumption|]. split; [now rewrite Nat.add_succ_r|]. split.
      * rewrite Hlen. unfold l2, l1. now rewrite !set_nth_length.
      * intros m Hm. rewrite Hrest by lia. apply Ho. lia.
Qed.

Lemma drain_no_reply k n j : j < k -> ~ In (Reply j) (drain k n).
Proof. revert k; induction n as [|n IH]; intros k H; cbn; [auto|]. intros [|[[= ->]|Hx]]; [discriminate|lia|]. eapply IH; [|exact Hx]. lia. Qed.

Lemma arrivals_drain k n : arrivals (drain k n) = [].
Proof. revert k; induction n as [|n IH]; intros k; cbn; auto. Qed.

Lemma overtakes ks k i j : j < k -> k < i -> i < length ks -> kind ks k = true ->
  exists t, possible t /\ arrivals t = ks /\ In (Start i) t /\ ~ In (Reply j) t.
Proof.
  intros Hjk Hki Hi Hk.
  set (l := map (fun s => mkReq s Waiting s) ks).
  assert (Hnth : forall m, m < length ks -> nth_error l m = Some (mkReq (kind ks m) Waiting (kind ks m))).
  { intros m Hm. unfold l. rewrite nth_error_map. unfold kind. rewrite (nth_error_nth' ks false) by assumption. reflexivity. }
  destruct (run_drain (i - S k) (S k) l) as (l' & Hr & Hpc & Hlen & Hrest).
  { cbn. rewrite Hnth by lia. cbn. assumption. }
  { intros m Hm. exists (kind ks m). apply Hnth. lia. }
  replace (S k + (i - S k)) with i in * by lia.
  exists (map Arrive ks ++ drain (S k) (i - S k) ++ [Start i]).
  split; [|split; [|split]].
  - eexists. rewrite run_app, run_arrives. cbn [app init]. change ([] ++ map _ ks) with l. fold l.
    rewrite run_app, Hr. cbn [run step]. rewrite Hrest by lia. rewrite Hnth by lia. rewrite Hpc. reflexivity.
  - unfold arrivals. rewrite !flat_map_app. fold (arrivals (map Arrive ks)). fold (arrivals (drain (S k) (i - S k))).
    rewrite arrivals_map, arrivals_drain. cbn. now rewrite app_nil_r.
  - apply in_or_app. right. apply in_or_app. right. now left.
  - intros H. apply in_app_or in H as [H|H].
    + apply in_map_iff in H as (? & ? & _). discriminate.
    + apply in_app_or in H as [H|[H|[]]]; [|discriminate]. apply drain_no_reply in H; [assumption|lia].
Qed.

(** exact characterisation: which earlier requests are waited for *)
Lemma order_iff ks i j : j < i -> i < length ks -> kind ks j = false ->
  ((forall t, possible t -> arrivals t = ks -> only_after t (Reply j) (Start i)) <->
   (forall k, j <= k < i -> kind ks k = false)).
Proof.
  intros Hji Hi Hj. split.
  - intros H k Hk. destruct (kind ks k) eqn:E; [|reflexivity]. exfalso.
    assert (j < k) by (destruct (Nat.eq_dec j k) as [->|]; [congruence|lia]).
    destruct (overtakes ks k i j) as (t & Hp & Ha & Hs & Hn); try lia; auto.
    apply in_split in Hs as (pre & post & ->). apply Hn. apply in_or_app. left. eapply H; [exact Hp|exact Ha|reflexivity].
  - intros H t Hp Ha. apply (start_after_run t (i - j)); [lia|assumption|assumption|].
    now rewrite Ha.
Qed.

(* ---------- progress ---------- *)
Lemma progress t : possible t -> ~ all_replied t ->
  exists e, is_arrive e = false /\ possible (t ++ [e]).
Proof.
  intros [l Hl] Hn. pose proof (inv_run t l Hl) as [Hk Hb Hr Hc Hrs].
  assert (Hex : exists n r, nth_error l n = Some r /\ ph r <> Replied /\
            forall m r', m < n -> nth_error l m = Some r' -> ph r' = Replied).
  { assert (G : forall b, b <= length l ->
      (exists n r, nth_error l n = Some r /\ ph r <> Replied /\
         forall m r', m < n -> nth_error l m = Some r' -> ph r' = Replied) \/
      (forall m r', m < b -> nth_error l m = Some r' -> ph r' = Replied)).
    { induction b as [|b IHb]; intros Hbl; [right; intros; lia|].
      destruct IHb as [H|H]; [lia|now left|].
      destruct (nth_error l b) as [r|] eqn:E.
      - destruct (ph r) eqn:Ep.
        + left. exists b, r. rewrite Ep. repeat split; auto. discriminate.
        + left. exists b, r. rewrite Ep. repeat split; auto. discriminate.
        + right. intros m r' Hm Hm'. destruct (Nat.eq_dec m b) as [->|]; [congruence|]. eapply H; [|exact Hm']. lia.
      - apply nth_error_None in E. lia. }
    destruct (G (length l) (le_n _)) as [H|H]; [assumption|]. exfalso. apply Hn.
    intros n Hlt. rewrite <- Hk, map_length in Hlt.
    destruct (nth_error l n) as [r|] eqn:E; [|apply nth_error_None in E; lia].
    specialize (H n r Hlt E). apply (Hr n r E) in H. split; auto. }
  destruct Hex as (n & r & En & Hph & Hprev).
  destruct r as [s p c]; cbn in Hph.
  assert (Hpc : prev_closed l n = true).
  { destruct n as [|m]; [reflexivity|]. cbn. destruct (nth_error l m) as [r'|] eqn:E.
    - apply (Hc m r' E). right. eapply Hprev; [|exact E]. lia.
    - apply nth_error_None in E. pose proof (nth_lt _ _ _ En). lia. }
  destruct p; [| |congruence].
  - exists (Start n). split; [reflexivity|]. eexists. rewrite run_app, Hl. cbn. rewrite En, Hpc. reflexivity.
  - exists (Reply n). split; [reflexivity|].
    assert (Hnp := no_panic (t ++ [Reply n])). rewrite run_app, Hl in Hnp. unfold possible. rewrite run_app, Hl.
    cbn in *. rewrite En in *. destruct s; [eauto|]. destruct c; [congruence|eauto].
Qed.

(** every history has at most two internal events per request *)
Definition cost (p : phase) : nat := match p with Waiting => 2 | Running => 1 | Replied => 0 end.
Fixpoint weight (l : list req) : nat :=
  match l with [] => 0 | r :: l' => cost (ph r) + weight l' end.

Lemma weight_app l l' : weight (l ++ l') = weight l + weight l'.
Proof. induction l as [|x l IH]; cbn [app weight]; [reflexivity|lia]. Qed.

Lemma weight_set l n s p c p' c' : nth_error l n = Some (mkReq s p c) ->
  weight (set_nth l n (mkReq s p' c')) + cost p = weight l + cost p'.
Proof.
  revert n; induction l as [|x l IH]; intros [|n]; cbn [nth_error set_nth weight]; try discriminate.
  - intros [= ->]. cbn [ph]. lia.
  - intros H. specialize (IH n H). lia.
Qed.

Lemma count_bound t l : run init t = Ok l ->
  length (filter (fun e => negb (is_arrive e)) t) + weight l = 2 * length (arrivals t).
Proof.
  revert l; induction t as [|e t IH] using rev_ind; intros l H.
  - injection H as <-. reflexivity.
  - rewrite run_app in H. destruct (run init t) as [l0| |] eqn:E; try discriminate.
    specialize (IH l0 eq_refl). rewrite filter_app, app_length. unfold arrivals in *. rewrite flat_map_app, app_length.
    cbn in H. destruct e as [s|n|n]; cbn in H |- *.
    + injection H as <-. rewrite weight_app. cbn [weight cost ph]. lia.
    + destruct (nth_error l0 n) as [[s [] c]|] eqn:En; try discriminate.
      destruct (prev_closed l0 n); [|discriminate]. injection H as <-.
      pose proof (weight_set _ _ _ _ _ Running c En) as W. cbn [cost] in W. lia.
    + destruct (nth_error l0 n) as [[s [] c]|] eqn:En; try discriminate.
      destruct s; [injection H as <-|destruct c; [discriminate|injection H as <-]].
      * pose proof (weight_set _ _ _ _ _ Replied c En) as W. cbn [cost] in W. lia.
      * pose proof (weight_set _ _ _ _ _ Replied true En) as W. cbn [cost] in W. lia.
Qed.
